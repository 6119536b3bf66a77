(** Validation, order of fields and triggers. *)
From Coq Require Import String ZArith List Bool Lia ZifyBool ZifyNat Sorting.Permutation Sorting.Sorted.
From Verif Require Import Base BaseProofs WireModel TypeModel TextModel TextSpec TextProofs ValueModel MarkModel CopyModel NtModel
  TypeSpec TypeNameProofs TypeDefProofs NtSpec GroupModel GroupSpec GroupProofs.
Import ListNotations.
Local Open Scope Z_scope.

Lemma needs_ok t : needs_channel t = true <-> needs_record t.
Proof. unfold needs_record. destruct t; cbn; split; try tauto; try discriminate; intuition discriminate. Qed.
(** a mapping without a record ignores its channel *)
Definition cleaned (f : fconf) : fconf :=
  if needs_channel (fc_type f) then f
  else {| fc_channel := []; fc_trigger := fc_trigger f; fc_id := fc_id f; fc_type := fc_type f; fc_order := fc_order f; fc_const := fc_const f |}.
Lemma validate_fields_spec l : validate_fields l =
  if forallb (fun x => negb (needs_channel (fc_type (snd x))) || negb (is_nil (fc_channel (snd x)))) l
  then Some (map (fun x => (fst x, cleaned (snd x))) l) else None.
Proof.
  induction l as [|[n f] l IH]; [reflexivity|]. cbn [validate_fields forallb map fst snd]. unfold cleaned at 1.
  destruct (needs_channel (fc_type f)) eqn:N; cbn [andb negb orb].
  - destruct (is_nil (fc_channel f)); cbn [negb andb]; [reflexivity|]. rewrite IH. now destruct (forallb _ l).
  - rewrite IH. now destruct (forallb _ l).
Qed.

(** ** Sets *)
Lemma set_add_In x y l : In y (set_add x l) <-> y = x \/ In y l.
Proof.
  induction l as [|z l IH]; cbn [set_add].
  - cbn. intuition.
  - destruct (str_ltb x z); [cbn; intuition|]. destruct (str_eqb x z) eqn:E.
    + apply str_eqb_eq in E. subst z. cbn. intuition congruence.
    + cbn [In]. rewrite IH. intuition.
Qed.
Lemma fold_add_In l : forall acc y, In y (fold_left (fun acc x => set_add x acc) l acc) <-> In y l \/ In y acc.
Proof.
  induction l as [|x l IH]; intros acc y; cbn [fold_left]; [cbn; intuition|].
  rewrite IH, set_add_In. cbn. intuition congruence.
Qed.
Lemma set_add_sorted x l : StronglySorted str_lt l -> StronglySorted str_lt (set_add x l).
Proof.
  induction 1 as [|y l S IH F]; cbn [set_add]; [repeat constructor|].
  destruct (str_ltb x y) eqn:E.
  - constructor; [now constructor|]. constructor; [exact E|]. rewrite Forall_forall in *. intros z I.
    specialize (F z I). unfold str_lt in *. eapply str_ltb_trans; eassumption.
  - destruct (str_eqb x y) eqn:E2; [now constructor|]. constructor; [assumption|]. apply Forall_forall. intros z I.
    apply set_add_In in I as [->|I].
    + unfold str_lt. destruct (str_ltb y x) eqn:E3; [reflexivity|]. exfalso. apply str_eqb_neq in E2. apply E2. now apply str_ltb_total.
    + rewrite Forall_forall in F. auto.
Qed.

(** ** Order *)
Definition pair_of (f : fdef) : str * fconf := (fd_name f, fd_conf f).
Lemma insert_perm f l : Permutation (insert_field f l) (f :: l).
Proof.
  induction l as [|g l IH]; cbn [insert_field]; [reflexivity|]. destruct (_ <=? _); [reflexivity|].
  rewrite IH. apply perm_swap.
Qed.
Lemma sort_perm l : Permutation (sort_fields l) l.
Proof. induction l as [|f l IH]; cbn [sort_fields fold_right]; [reflexivity|]. fold (sort_fields l). now rewrite insert_perm, IH. Qed.
Definition bef (a b : fdef) : Prop := before (pair_of a) (pair_of b).
Lemma insert_sorted f l : StronglySorted bef l -> Forall (fun g => str_lt (fd_name f) (fd_name g)) l -> StronglySorted bef (insert_field f l).
Proof.
  induction 1 as [|g l S IH F]; intro N; cbn [insert_field]; [repeat constructor|].
  inversion N as [|? ? N1 N2]; subst. destruct (Z.leb_spec (order_of f) (order_of g)).
  - constructor; [now constructor|]. constructor.
    + unfold bef, before, pair_of, order_of in *. cbn [fst snd]. destruct (Z.eq_dec (fc_order (fd_conf f)) (fc_order (fd_conf g))); [right; auto|left; lia].
    + rewrite Forall_forall in *. intros x I. specialize (F x I). specialize (N2 x I).
      unfold bef, before, pair_of, order_of in *. cbn [fst snd] in *.
      destruct (Z.eq_dec (fc_order (fd_conf f)) (fc_order (fd_conf x))); [right; auto|left; lia].
  - constructor; [now apply IH|]. apply Forall_forall. intros x I.
    apply (Permutation_in _ (insert_perm f l)) in I. destruct I as [<-|I].
    + left. unfold pair_of, order_of in *. cbn [fst snd]. lia.
    + rewrite Forall_forall in F. auto.
Qed.
Lemma sort_sorted l : StronglySorted str_lt (map fd_name l) -> StronglySorted bef (sort_fields l).
Proof.
  induction l as [|f l IH]; intro S; [constructor|]. cbn [map] in S. inversion S as [|? ? S1 F]; subst.
  cbn [sort_fields fold_right]. fold (sort_fields l). apply insert_sorted; [auto|].
  apply Forall_forall. intros g I. apply (Permutation_in _ (sort_perm l)) in I. rewrite Forall_forall in F. apply F. now apply in_map.
Qed.

(** ** Definitions *)
Definition keep (x : str * fconf) : bool := negb (is_nil (fst x)) || match fc_type (snd x) with MMeta => true | _ => false end.
Lemma keep_kept x : keep x = true <-> kept x.
Proof.
  unfold keep, kept. destruct x as [n f]. cbn [fst snd]. rewrite orb_true_iff, negb_true_iff.
  destruct n; cbn [is_nil]; destruct (fc_type f); intuition congruence.
Qed.
Lemma define_pairs l : map pair_of (define_fields l) = filter keep l.
Proof.
  unfold define_fields. rewrite map_map. fold keep. transitivity (map (fun x => x) (filter keep l)); [|apply map_id].
  apply map_ext. now intros [].
Qed.
Lemma resolve_pairs l : map pair_of (resolve l) = map pair_of l.
Proof. unfold resolve. rewrite map_map. reflexivity. Qed.
Lemma sorted_filter {A} (R : A -> A -> Prop) P l : StronglySorted R l -> StronglySorted R (filter P l).
Proof.
  induction 1 as [|x l S IH F]; cbn [filter]; [constructor|]. destruct (P x); [|assumption].
  constructor; [assumption|]. rewrite Forall_forall in *. intros y I. apply filter_In in I as [I _]. auto.
Qed.
Lemma sorted_map {A B} (R : B -> B -> Prop) (f : A -> B) l : StronglySorted R (map f l) <-> StronglySorted (fun a b => R (f a) (f b)) l.
Proof.
  induction l as [|x l IH]; cbn [map]; split; intro S; try constructor; inversion S; subst; try (now apply IH); [|].
  - rewrite Forall_map in H2. exact H2.
  - rewrite Forall_map. exact H2.
Qed.
Lemma define_names_sorted l : StronglySorted str_lt (map fst l) -> StronglySorted str_lt (map fd_name (define_fields l)).
Proof.
  intro S. replace (map fd_name (define_fields l)) with (map fst (map pair_of (define_fields l))) by (rewrite map_map; reflexivity).
  rewrite define_pairs. apply sorted_map. apply sorted_filter. now apply sorted_map.
Qed.

(** ** Triggers *)
Lemma index_of_Some n l i : index_of n l = Some i -> exists f, nth_error l i = Some f /\ fd_name f = n.
Proof.
  revert i. induction l as [|f l IH]; intros i E; [discriminate|]. cbn [index_of] in E. destruct (str_eqb (fd_name f) n) eqn:N.
  - inversion E; subst. apply str_eqb_eq in N. exists f. auto.
  - destruct (index_of n l) as [j|]; [|discriminate]. inversion E; subst. apply (IH j eq_refl).
Qed.
Lemma index_of_None n l : index_of n l = None -> ~ In n (map fd_name l).
Proof.
  induction l as [|f l IH]; intros E I; [destruct I|]. cbn [index_of] in E. destruct (str_eqb (fd_name f) n) eqn:N; [discriminate|].
  destruct (index_of n l); [discriminate|]. apply str_eqb_neq in N. destruct I; [congruence|]. now apply IH.
Qed.
Lemma NoDup_name_eq l (f g : fdef) : NoDup (map fd_name l) -> In f l -> In g l -> fd_name f = fd_name g -> f = g.
Proof.
  induction l as [|x l IH]; intros N I J E; [destruct I|]. cbn [map] in N. inversion N as [|? ? N1 N2]; subst.
  destruct I as [->|I], J as [->|J]; auto; exfalso; apply N1; [rewrite E|rewrite <- E]; now apply in_map.
Qed.
Lemma star_In fields : forall acc y,
  In y (fold_left (fun a g => if has_channel g then set_add (fd_name g) a else a) fields acc) <->
  In y acc \/ exists g, In g fields /\ has_channel g = true /\ fd_name g = y.
Proof.
  induction fields as [|g l IH]; intros acc y; cbn [fold_left].
  - split; [auto|]. intros [|(g & [] & _)]; auto.
  - rewrite IH. destruct (has_channel g) eqn:C.
    + rewrite set_add_In. split.
      * intros [[->|I]|(h & I & E)]; [right; exists g; cbn; auto|auto|right; exists h; cbn; auto].
      * intros [I|(h & [<-|I] & E1 & E2)]; [auto|left; left; congruence|right; eauto].
    + split; [intros [I|(h & I & E)]; [auto|right; exists h; cbn; auto]|].
      intros [I|(h & [<-|I] & E1 & E2)]; [auto|congruence|right; eauto].
Qed.
Lemma resolve_target_In fields acc t y : NoDup (map fd_name fields) ->
  (In y (resolve_target fields acc t) <->
   In y acc \/ exists g, In g fields /\ has_channel g = true /\ fd_name g = y /\ (t = bs "*" \/ t = y)).
Proof.
  intro N. unfold resolve_target. destruct (str_eqb t (bs "*")) eqn:E.
  - apply str_eqb_eq in E. rewrite star_In. split; intros [I|(g & I)]; auto; right; exists g; tauto.
  - apply str_eqb_neq in E. destruct (index_of t fields) as [i|] eqn:X.
    + destruct (index_of_Some _ _ _ X) as (g & G & EG). rewrite G. pose proof (nth_error_In _ _ G) as IG.
      destruct (has_channel g) eqn:C.
      * rewrite set_add_In. split.
        -- intros [->|I]; [right; exists g; repeat split; auto|auto].
        -- intros [I|(h & I & E1 & E2 & [E3|E3])]; [auto|congruence|]. left. congruence.
      * split; [auto|]. intros [I|(h & I & E1 & E2 & [E3|E3])]; [auto|congruence|].
        assert (h = g) by (apply (NoDup_name_eq fields); auto; congruence). congruence.
    + split; [auto|]. intros [I|(h & I & E1 & E2 & [E3|E3])]; [auto|congruence|].
      exfalso. apply (index_of_None _ _ X). subst. now apply in_map.
Qed.
Lemma fold_targets_In fields : NoDup (map fd_name fields) -> forall l acc y,
  In y (fold_left (resolve_target fields) l acc) <->
  In y acc \/ exists g t, In g fields /\ has_channel g = true /\ fd_name g = y /\ In t l /\ (t = bs "*" \/ t = y).
Proof.
  intro N. induction l as [|t l IH]; intros acc y; cbn [fold_left].
  - split; [auto|]. intros [|(g & t & _ & _ & _ & [] & _)]; auto.
  - rewrite IH, resolve_target_In by assumption. split.
    + intros [[I|(g & A & B & C & D)]|(g & t' & A & B & C & D & E)]; [auto| |].
      * right. exists g, t. cbn. tauto.
      * right. exists g, t'. cbn. tauto.
    + intros [I|(g & t' & A & B & C & [<-|D] & E)]; [auto|left; right; exists g; tauto|right; exists g, t'; tauto].
Qed.
Lemma listed_pieces f t : In t (listed f) <-> piece 44 (fc_trigger (fd_conf f)) t.
Proof. unfold listed. rewrite fold_add_In, getlines_pieces. cbn. tauto. Qed.
Lemma has_channel_iff g : has_channel g = true <-> fc_channel (fd_conf g) <> [].
Proof. unfold has_channel. destruct (fc_channel (fd_conf g)); cbn; split; congruence. Qed.
Lemma existsb_map {A B} (f : A -> B) P l : existsb P (map f l) = existsb (fun x => P (f x)) l.
Proof. induction l; cbn; congruence. Qed.
Lemma resolve_triggers fields f t : NoDup (map fd_name fields) -> Forall (fun f => fd_triggers f = []) fields -> In f (resolve fields) ->
  (In t (fd_triggers f) <-> exists h, In h (map pair_of fields) /\ fst h = t /\ triggers (map pair_of fields) (pair_of f) h).
Proof.
  intros N E I. unfold resolve in I. apply in_map_iff in I as (f0 & <- & I). cbn [fd_triggers].
  rewrite Forall_forall in E. rewrite (E f0 I). unfold triggers.
  replace (existsb (fun x => negb (is_nil (fc_trigger (snd x)))) (map pair_of fields)) with (has_triggers fields).
  2:{ rewrite existsb_map. reflexivity. }
  cbn [pair_of fst snd fd_conf fd_name]. destruct (has_triggers fields) eqn:H.
  - rewrite fold_targets_In by assumption. split.
    + intros [[]|(g & x & A & B & C & D & X)]. exists (pair_of g). split; [now apply in_map|]. split; [exact C|].
      split; [now apply has_channel_iff|]. apply listed_pieces in D. unfold pair_of. cbn [fst snd fd_conf].
      destruct X as [-> | ->]; [now right|left]. now rewrite C.
    + intros (h & A & B & C & D). apply in_map_iff in A as (g & <- & A). right.
      unfold pair_of in *. cbn [fst snd fd_conf fd_name] in *. destruct D as [D|D].
      * exists g, (fd_name g). split; [assumption|]. split; [now apply has_channel_iff|]. split; [assumption|].
        split; [now apply listed_pieces|right; congruence].
      * exists g, (bs "*"). split; [assumption|]. split; [now apply has_channel_iff|]. split; [assumption|].
        split; [now apply listed_pieces|now left].
  - unfold pair_of. cbn [fd_name fd_conf]. destruct (has_channel f0) eqn:C.
    + cbn [set_add In]. split.
      * intros [<-|[]]. exists (fd_name f0, fd_conf f0). split; [apply in_map_iff; exists f0; auto|]. split; [reflexivity|]. split; [now apply has_channel_iff|reflexivity].
      * intros (h & A & B & D & E2). subst h. left. exact B.
    + cbn [In]. split; [tauto|]. intros (h & A & B & D & E2). subst h. cbn [snd] in D. apply has_channel_iff in D. congruence.
Qed.
