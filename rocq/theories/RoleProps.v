(** C119: the roles of an account. *)
From Coq Require Import String List Bool Arith ZArith Lia.
From Verif Require Import Base RoleModel RoleSpec.
Import ListNotations.

Lemma names_in s l r : In r (names s l) <-> exists g, In g l /\ grname s g = Some r.
Proof.
  induction l as [|g l IH]; cbn [names]; [cbn; split; [tauto|intros (? & [] & _)]|]. destruct (grname s g) as [n|] eqn:E; cbn [In]; rewrite IH; split.
  - intros [<-|(x & H & N)]; [exists g; auto|exists x; auto].
  - intros (x & [<-|H] & N); [left; congruence|right; eauto].
  - intros (x & H & N). eauto.
  - intros (x & [<-|H] & N); [congruence|eauto].
Qed.
Lemma loop_all s name gid : lib s <> Shrinks -> forall fuel room, 0 < room -> length (groups s name gid) < room + fuel -> 0 < fuel -> all_groups fuel s name gid room = Some (groups s name gid).
Proof.
  intros LB. induction fuel as [|k IH]; intros room P H F; [lia|]. cbn [all_groups]; unfold getgrouplist.
  destruct (length (groups s name gid) <=? room) eqn:Q; [rewrite Q; now rewrite firstn_all|]. apply Nat.leb_gt in Q. destruct (lib s) eqn:E; [| |easy].
  - assert (R : length (groups s name gid) =? room = false) by (apply Nat.eqb_neq; lia). rewrite R. assert (T : room <? length (groups s name gid) = true) by (apply Nat.ltb_lt; lia). rewrite T. apply IH; lia.
  - rewrite Nat.eqb_refl. apply IH; lia.
Qed.
(** An account known to the system has exactly the roles of its groups, however many there are; the loop ends. *)
Theorem C119_known_partial : forall s account, lib s <> Shrinks -> known s account ->
  exists n l, (forall fuel, n <= fuel -> roles fuel s account = Some l) /\ forall r, In r l <-> member_of s account r.
Proof.
  intros s a LB ((name, gid) & K). exists (S (length (groups s name gid))), (names s (gid :: groups s name gid)). split.
  - intros fuel F. unfold roles. rewrite K. replace (all_groups fuel s name gid guess) with (Some (groups s name gid)); [reflexivity|]. symmetry.
    apply loop_all; auto; unfold guess; lia.
  - intro r. rewrite names_in. unfold member_of. split.
    + intros (g & [<-|H] & N); exists name, gid; eexists; (split; [exact K|]); (split; [|exact N]); auto.
    + intros (name' & gid' & g & K' & H & N). rewrite K in K'. injection K' as <- <-. exists g. split; [|exact N]. destruct H as [->|H]; [now left|now right].
Qed.
(** Whatever the C library does, an account gets no role but those of its groups, and its own name if the system does not know it. *)
Theorem C119_no_others : forall s account fuel l r, roles fuel s account = Some l -> In r l -> member_of s account r \/ (~ known s account /\ r = account).
Proof.
  intros s a fuel l r H I. unfold roles in H. destruct (pw s a) as [(name, gid)|] eqn:K.
  - left. destruct (all_groups fuel s name gid guess) as [g|] eqn:A; [|discriminate]. assert (I' : In r (names s (gid :: g))) by (cbn [option_map] in H; congruence). apply names_in in I' as (x & X & N). exists name, gid, x. split; [exact K|]. split; [|exact N]. destruct X as [<-|X]; [now left|right].
    revert A. generalize guess. induction fuel as [|f IH]; intros room A; [discriminate|]. cbn [all_groups] in A. destruct (getgrouplist s name gid room) as ([y|] & n) eqn:E.
    + unfold getgrouplist in E. destruct (length (groups s name gid) <=? room); [|discriminate]. injection E as <- <-. destruct (length (groups s name gid) <=? room); injection A as <-; [now rewrite firstn_all in X|easy].
    + destruct (n =? room); [eauto|]. destruct (room <? n); [eauto|]. injection A as <-. easy.
  - injection H as <-. destruct I as [<-|[]]. right. split; [|reflexivity]. intros (e & E). congruence.
Qed.
(** Whatever the C library does, the primary group of an account is one of its roles. *)
Theorem C119_primary : forall s account name gid group fuel l, pw s account = Some (name, gid) -> grname s gid = Some group -> roles fuel s account = Some l -> In group l.
Proof.
  intros s a name gid r fuel l K N H. unfold roles in H. rewrite K in H. destruct (all_groups fuel s name gid guess) as [g|]; [|discriminate].
  assert (E : l = names s (gid :: g)) by (cbn [option_map] in H; congruence). rewrite E. apply names_in. exists gid. split; [now left|exact N].
Qed.
Definition a_group : str := bs "operators".
(** The name of an account is that given by the client; where the system does not know it, it serves as a role, also if it is the name of a group. *)
Theorem C119_unknown_refuted : exists s account l g, lib s = Reports /\ roles 1 s account = Some l /\ In account l /\ grname s g = Some account /\ ~ member_of s account account.
Proof.
  exists {| pw := fun _ => None; groups := fun _ _ => []; grname := fun g => if Z.eqb g 7 then Some a_group else None; lib := Reports |}, a_group, [a_group], 7%Z.
  split; [reflexivity|]. split; [reflexivity|]. split; [now left|]. split; [reflexivity|]. intros (? & ? & ? & H & _). discriminate H.
Qed.
(** Twenty groups, more than at first there is room for, with either library; a group without a name is no role. *)
Definition many (b : libc) : sys :=
  {| pw := fun a => if str_eqb a (bs "me") then Some (a, 100%Z) else None; groups := fun _ g => g :: map Z.of_nat (seq 1 19); grname := fun g => if Z.eqb g 5 then None else Some [g]; lib := b |}.
Example C119_example : known (many Reports) (bs "me") /\ roles 2 (many Reports) (bs "me") = roles 2 (many Keeps) (bs "me") /\ option_map (@length str) (roles 2 (many Keeps) (bs "me")) = Some 20 /\
  option_map (@length str) (roles 2 (many Shrinks) (bs "me")) = Some 1 /\ roles 0 (many Keeps) (bs "you") = Some [bs "you"].
Proof. split; [eexists; vm_compute; reflexivity|]. vm_compute. auto. Qed.

Print Assumptions C119_known_partial.
Print Assumptions C119_no_others.
Print Assumptions C119_primary.
Print Assumptions C119_unknown_refuted.
