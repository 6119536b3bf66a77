(** C47: sources are asked in order of (order, name). *)
From Coq Require Import ZArith List Bool Lia.
From Verif Require Import Base BaseProofs ConfigModel ConfigProps SourceModel.
Import ListNotations.
Local Open Scope Z_scope.

(** ** Order of keys *)
Definition key_lt (a b : key) : Prop := fst a < fst b \/ (fst a = fst b /\ str_leb (snd a) (snd b) = true /\ snd a <> snd b).
Lemma key_eqb_eq : forall a b, key_eqb a b = true <-> a = b.
Proof.
  intros [o n] [o' n']. unfold key_eqb. cbn [fst snd]. rewrite andb_true_iff, Z.eqb_eq, str_eqb_eq. split; [intros (-> & ->); auto|]. intros [= -> ->]. auto.
Qed.
Lemma key_eqb_neq : forall a b, key_eqb a b = false <-> a <> b.
Proof. intros. rewrite <- key_eqb_eq. destruct (key_eqb a b); split; congruence. Qed.
Lemma key_ltb_lt : forall a b, key_ltb a b = true <-> key_lt a b.
Proof.
  intros [o n] [o' n']. unfold key_ltb, key_lt. cbn [fst snd]. rewrite orb_true_iff, andb_true_iff, Z.ltb_lt, Z.eqb_eq, negb_true_iff. split.
  - intros [H|(-> & H)]; auto. right. split; auto. split; [apply str_leb_total; auto|]. intros ->. rewrite str_leb_refl in H. discriminate.
  - intros [H|(-> & H & N)]; auto. right. split; auto. destruct (str_leb n' n) eqn:E; auto. elim N. apply str_leb_anti; auto.
Qed.
Lemma key_lt_trans : forall a b c, key_lt a b -> key_lt b c -> key_lt a c.
Proof.
  intros [o n] [o' n'] [o'' n'']. unfold key_lt. cbn [fst snd]. intros [H|(-> & H & N)] [H'|(-> & H' & N')]; auto; try (left; lia).
  right. split; auto. split; [eapply str_leb_trans; eauto|]. intros ->. apply N. apply str_leb_anti; auto.
Qed.
Lemma key_lt_irrefl : forall a, ~ key_lt a a.
Proof. intros a [H|(_ & _ & H)]; [lia|congruence]. Qed.
Lemma key_total : forall a b, key_lt a b \/ a = b \/ key_lt b a.
Proof.
  intros [o n] [o' n']. unfold key_lt. cbn [fst snd]. destruct (Z.lt_trichotomy o o') as [H|[->|H]]; auto.
  destruct (str_eqb n n') eqn:E; [apply str_eqb_eq in E; subst; auto|]. apply str_eqb_neq in E.
  destruct (str_leb n n') eqn:L; [left; auto|]. apply str_leb_total in L. right. right. right. auto.
Qed.

(** strictly ascending *)
Inductive ascending : list key -> Prop :=
| asc_nil : ascending []
| asc_cons : forall k l, (forall k', In k' l -> key_lt k k') -> ascending l -> ascending (k :: l).

Lemma insert_in : forall k s l k', In k' (map fst (insert k s l)) <-> k' = k \/ In k' (map fst l).
Proof.
  intros k s. induction l as [|[q x] l IH]; intros k'; cbn [insert map fst In]; [intuition|]. destruct (key_ltb k q); cbn [map fst In]; [intuition|]. rewrite IH. intuition.
Qed.
Lemma insert_asc : forall k s l, ~ In k (map fst l) -> ascending (map fst l) -> ascending (map fst (insert k s l)).
Proof.
  intros k s. induction l as [|[q x] l IH]; cbn [insert map fst]; intros N A.
  - constructor; [intros ? []|constructor].
  - inversion A; subst. destruct (key_ltb k q) eqn:E.
    + apply key_ltb_lt in E. cbn [map fst]. constructor; auto. intros k' [<-|K]; auto. eapply key_lt_trans; eauto.
    + cbn [map fst]. constructor.
      * intros k' K. apply insert_in in K. destruct K as [->|K]; auto. destruct (key_total k q) as [X|[X|X]]; auto.
        -- apply key_ltb_lt in X. congruence.
        -- subst. elim N. left. reflexivity.
      * apply IH; auto. intros X. apply N. right. auto.
Qed.
Lemma erase_incl : forall k l k', In k' (map fst (erase k l)) -> In k' (map fst l).
Proof. intros k. induction l as [|[q x] l IH]; intros k'; cbn; auto. destruct (key_eqb q k); cbn; auto. intuition. Qed.
Lemma erase_asc : forall k l, ascending (map fst l) -> ascending (map fst (erase k l)).
Proof.
  intros k. induction l as [|[q x] l IH]; cbn [erase map fst]; intros A; auto. inversion A; subst. destruct (key_eqb q k); auto.
  cbn [map fst]. constructor; auto. intros k' K. apply H1. eapply erase_incl; eauto.
Qed.
Lemma lookup_none : forall k l, lookup k l = None <-> ~ In k (map fst l).
Proof.
  intros k. induction l as [|[q x] l IH]; cbn; [tauto|]. destruct (key_eqb q k) eqn:E.
  - apply key_eqb_eq in E. split; [discriminate|]. intros N. elim N. auto.
  - apply key_eqb_neq in E. rewrite IH. tauto.
Qed.
Lemma lookup_insert : forall k s l k', ~ In k (map fst l) -> lookup k' (insert k s l) = if key_eqb k k' then Some s else lookup k' l.
Proof.
  intros k s. induction l as [|[q x] l IH]; intros k' N; cbn [insert lookup]; auto. destruct (key_ltb k q) eqn:E; cbn [lookup].
  - reflexivity.
  - rewrite IH by (intros X; apply N; right; auto). destruct (key_eqb q k') eqn:Q; auto. apply key_eqb_eq in Q. subst.
    destruct (key_eqb k k') eqn:K; auto. apply key_eqb_eq in K. subst. elim N. left. reflexivity.
Qed.
Lemma lookup_erase : forall k l k', ascending (map fst l) -> lookup k' (erase k l) = if key_eqb k k' then None else lookup k' l.
Proof.
  intros k. induction l as [|[q x] l IH]; intros k' A; cbn [erase lookup].
  - destruct (key_eqb k k'); reflexivity.
  - inversion A; subst. destruct (key_eqb q k) eqn:E.
    + apply key_eqb_eq in E. subst. destruct (key_eqb k k') eqn:K; auto. apply key_eqb_eq in K. subst. apply lookup_none. intros X. exact (key_lt_irrefl _ (H1 _ X)).
    + cbn [lookup]. rewrite IH by auto. destruct (key_eqb q k') eqn:Q; auto. destruct (key_eqb k k') eqn:K; auto.
      apply key_eqb_eq in K, Q. subst. apply key_eqb_neq in E. congruence.
Qed.
Lemma erase_insert : forall k s l, ~ In k (map fst l) -> erase k (insert k s l) = l.
Proof.
  intros k s. induction l as [|[q x] l IH]; intros N; cbn [insert erase].
  - rewrite (proj2 (key_eqb_eq k k)) by reflexivity. reflexivity.
  - destruct (key_ltb k q); cbn [erase]; [rewrite (proj2 (key_eqb_eq k k)) by reflexivity; reflexivity|].
    replace (key_eqb q k) with false; [rewrite IH; auto; intros X; apply N; right; auto|]. symmetry. apply key_eqb_neq. intros ->. apply N. left. reflexivity.
Qed.

Lemma run_snoc : forall cs c, run (cs ++ [c]) = fst (step (run cs) c).
Proof. intros. unfold run. rewrite fold_left_app. reflexivity. Qed.
(** ** The registry *)
(** sources are always kept in ascending order, no two under the same (order, name) *)
Theorem C47_order : forall cs, ascending (map fst (sources (run cs))).
Proof.
  intros cs. induction cs as [|c cs IH] using rev_ind; [constructor|]. rewrite run_snoc. destruct c as [n [s|] o|n o|n o|]; cbn [step add_source remove_source get_source list_source fst]; auto.
  - destruct (lookup (o, n) (sources (run cs))) eqn:L; cbn [fst sources]; auto. apply insert_asc; auto. apply lookup_none. auto.
  - cbn [sources]. apply erase_asc. auto.
Qed.
(** what is registered under a key, from the history alone *)
Fixpoint registered (k : key) (cur : option nat) (cs : list call) : option nat :=
  match cs with
  | [] => cur
  | Add n (Some s) o :: cs' => registered k (if key_eqb (o, n) k then match cur with Some x => Some x | None => Some s end else cur) cs'
  | Remove n o :: cs' => registered k (if key_eqb (o, n) k then None else cur) cs'
  | _ :: cs' => registered k cur cs'
  end.
Lemma registered_snoc : forall k cs cur c, registered k cur (cs ++ [c]) = registered k (registered k cur cs) [c].
Proof. intros k. induction cs as [|[n [s|] o|n o|n o|] cs IH]; intros cur c; cbn [app]; auto; cbn [registered]; apply IH. Qed.
Lemma registry : forall cs k, lookup k (sources (run cs)) = registered k None cs.
Proof.
  intros cs. induction cs as [|c cs IH] using rev_ind; intros k; [reflexivity|]. rewrite run_snoc, registered_snoc.
  destruct c as [n [s|] o|n o|n o|]; cbn [step add_source remove_source get_source list_source fst registered]; auto.
  - rewrite <- !IH. destruct (lookup (o, n) (sources (run cs))) as [x|] eqn:L; cbn [fst sources].
    + destruct (key_eqb (o, n) k) eqn:K; auto. apply key_eqb_eq in K. subst. rewrite L. reflexivity.
    + rewrite lookup_insert by (apply lookup_none; auto). destruct (key_eqb (o, n) k) eqn:K; auto. apply key_eqb_eq in K. subst. rewrite L. reflexivity.
  - rewrite <- IH. cbn [sources]. apply lookup_erase. apply C47_order.
Qed.
(** getSource() and removeSource() return what the history says; addSource() is refused exactly for a
    null source or a taken key; listSource() names exactly the registered keys *)
Theorem C47_results : forall cs n o,
  snd (step (run cs) (Get n o)) = RSource (registered (o, n) None cs) /\
  snd (step (run cs) (Remove n o)) = RSource (registered (o, n) None cs) /\
  snd (step (run cs) (Add n None o)) = RThrow /\
  (forall s, snd (step (run cs) (Add n (Some s) o)) = match registered (o, n) None cs with Some _ => RThrow | None => RDone end) /\
  (exists l, snd (step (run cs) Listing) = RList l /\ (In (n, o) l <-> registered (o, n) None cs <> None)).
Proof.
  intros cs n o. cbn [step add_source remove_source get_source list_source snd]. rewrite registry. repeat split.
  - intros s. destruct (registered (o, n) None cs); reflexivity.
  - eexists. split; [reflexivity|]. rewrite <- registry. rewrite in_map_iff. split.
    + intros (((o', n') & s) & E & X). cbn [fst snd] in E. inversion E; subst. intros L. apply lookup_none in L. apply L. apply in_map_iff. exists ((o, n), s). auto.
    + intros L. destruct (in_dec (fun a b => match key_eqb a b as e return key_eqb a b = e -> _ with true => fun H => left (proj1 (key_eqb_eq a b) H) | false => fun H => right (proj1 (key_eqb_neq a b) H) end eq_refl) (o, n) (map fst (sources (run cs)))) as [X|X].
      * apply in_map_iff in X. destruct X as ((k & s) & E & X). cbn [fst] in E. subst. exists ((o, n), s). auto.
      * elim L. apply lookup_none. auto.
Qed.
(** adding and removing a source leaves the server as it was *)
Theorem C47_restore : forall cs n s o, registered (o, n) None cs = None ->
  sources (run (cs ++ [Add n (Some s) o; Remove n o])) = sources (run cs).
Proof.
  intros cs n s o R. change [Add n (Some s) o; Remove n o] with ([Add n (Some s) o] ++ [Remove n o]). rewrite app_assoc, !run_snoc.
  cbn [step add_source remove_source fst sources]. rewrite registry, R. cbn [fst sources]. apply erase_insert. apply lookup_none. rewrite registry. auto.
Qed.
(** a refused addSource() changes nothing *)
Theorem C47_refused : forall cs n s o, snd (step (run cs) (Add n s o)) = RThrow -> run (cs ++ [Add n s o]) = run cs.
Proof.
  intros cs n s o. rewrite run_snoc. cbn [step]. unfold add_source. destruct s as [s|]; [|reflexivity]. destruct (lookup (o, n) (sources (run cs))); [reflexivity|discriminate].
Qed.

(** ** Creating a channel *)
(** a source decides about a channel if it sets a handler, closes the channel, or moves it away *)
Definition decides (b : behaviour) : Prop := exists a, In a (acts b) /\ a <> Look.
Lemma does_in : forall a b, does a b = true <-> In a (acts b).
Proof.
  intros a b. unfold does. rewrite existsb_exists. split; [intros (x & X & E); destruct a, x; cbn in E; congruence|]. intros X. exists a. split; auto. destruct a; reflexivity.
Qed.
Lemma not_decides : forall b, ~ decides b -> does Handler b = false /\ does Close b = false /\ does Take b = false.
Proof.
  intros b N. assert (G : forall a, a <> Look -> does a b = false). { intros a A. destruct (does a b) eqn:E; auto. elim N. exists a. split; auto. apply does_in; auto. }
  repeat split; apply G; discriminate.
Qed.
Lemma create_skip : forall behave pre rest, Forall (fun x => ~ decides (behave (snd x))) pre ->
  create behave new_chan (pre ++ rest) = (fst (create behave new_chan rest), map snd pre ++ snd (create behave new_chan rest)).
Proof.
  intros behave. induction pre as [|[k s] pre IH]; intros rest F; cbn [app map].
  - destruct (create behave new_chan rest); reflexivity.
  - inversion F; subst. cbn [snd] in *. destruct (not_decides _ H1) as (A & B & C). cbn [create op new_chan negb andb]. unfold touch. rewrite A, B, C. cbn [closed from op new_chan orb andb negb].
    change {| closed := false; from := []; op := true |} with new_chan. rewrite IH by auto. cbn [fst snd]. destruct (throws (behave s)); reflexivity.
Qed.
(** The first source in order which decides is the one which counts, if sources which throw do so before
    they do anything to the channel.  It is created if this source sets a handler, and does not close it;
    the sources before are asked once, in order, and those after it not at all. *)
Theorem C47_create_partial : forall behave cs, (forall s, throws (behave s) = true -> ~ decides (behave s)) ->
  let '(o, asked) := create_channel behave (run cs) in
  (Forall (fun x => ~ decides (behave (snd x))) (sources (run cs)) /\ o = Refused /\ asked = map snd (sources (run cs))) \/
  (exists pre k s post, sources (run cs) = pre ++ (k, s) :: post /\ Forall (fun x => ~ decides (behave (snd x))) pre /\ decides (behave s) /\
     asked = map snd pre ++ [s] /\
     o = if does Handler (behave s) && negb (does Close (behave s)) then Created s [s] else Refused).
Proof.
  intros behave cs T. unfold create_channel. generalize (sources (run cs)). intros l.
  assert (D : Forall (fun x => ~ decides (behave (snd x))) l \/ exists pre k s post, l = pre ++ (k, s) :: post /\ Forall (fun x => ~ decides (behave (snd x))) pre /\ decides (behave s)).
  { induction l as [|[k s] l IH]; auto.
    assert (E : decides (behave s) \/ ~ decides (behave s)).
    { unfold decides. destruct (does Handler (behave s)) eqn:A; [left; exists Handler; split; [apply does_in; auto|discriminate]|].
      destruct (does Close (behave s)) eqn:B; [left; exists Close; split; [apply does_in; auto|discriminate]|].
      destruct (does Take (behave s)) eqn:C; [left; exists Take; split; [apply does_in; auto|discriminate]|].
      right. intros ([] & X & N); apply does_in in X; congruence. }
    destruct E as [E|E]; [right; exists [], k, s, l; auto|]. destruct IH as [IH|(pre & k' & s' & post & -> & F & IH)]; [left; auto|].
    right. exists ((k, s) :: pre), k', s', post. auto. }
  destruct D as [D|(pre & k & s & post & -> & F & D)].
  - rewrite <- (app_nil_r l). rewrite create_skip by auto. cbn [create fst snd]. left. rewrite !app_nil_r. auto.
  - rewrite create_skip by auto. cbn [create op new_chan negb andb]. unfold touch. cbn [closed from op new_chan orb andb].
    destruct (throws (behave s)) eqn:TH; [elim (T s TH); auto|]. right. exists pre, k, s, post.
    destruct (does Close (behave s)) eqn:B; cbn [fst snd negb andb]; [rewrite andb_false_r; auto 10|]. rewrite andb_true_r.
    destruct (does Handler (behave s)) eqn:A; cbn [app fst snd]; auto 10.
    destruct (does Take (behave s)) eqn:C; cbn [negb fst snd]; auto 10.
    exfalso. destruct D as ([] & X & N); apply does_in in X; congruence.
Qed.
(** Without that hypothesis: a source which moves the ChannelControl away and then throws leaves the next
    one with a null pointer *)
Theorem C47_throw_refuted :
  let behave s := match s with O => {| acts := [Look; Take]; throws := true |} | _ => {| acts := [Look; Handler; Take]; throws := false |} end in
  create_channel behave (run [Add [97] (Some 0%nat) 0; Add [98] (Some 1%nat) 0]) = (Crash, [0%nat; 1%nat]).
Proof. reflexivity. Qed.
(** and the handlers of a source which threw are taken for those of the next, which ignored the channel *)
Theorem C47_wrong_source_refuted :
  let behave s := match s with O => {| acts := [Look; Handler]; throws := true |} | _ => {| acts := [Look]; throws := false |} end in
  create_channel behave (run [Add [97] (Some 0%nat) 0; Add [98] (Some 1%nat) 0]) = (Created 1 [0%nat], [0%nat; 1%nat]).
Proof. reflexivity. Qed.
Example C47_nonvacuous :
  let cs := [Add [98] (Some 0%nat) 5; Add [97] (Some 1%nat) 5; Add [122] (Some 2%nat) (-1); Add [97] (Some 3%nat) 5; Remove [98] 5; Add [98] (Some 4%nat) 5] in
  let behave s := match s with
    | 1%nat => {| acts := [Look]; throws := true |}
    | 4%nat => {| acts := [Look; Handler; Take]; throws := false |}
    | _ => {| acts := [Look]; throws := false |} end in
  map snd (sources (run cs)) = [2; 1; 4]%nat /\ create_channel behave (run cs) = (Created 4 [4%nat], [2; 1; 4]%nat) /\
  (forall s, throws (behave s) = true -> ~ decides (behave s)).
Proof.
  split; [reflexivity|]. split; [reflexivity|].
  intros s. destruct s as [|[|[|[|[|s]]]]]; cbn; try discriminate. intros _ (a & [<-|[]] & N). congruence.
Qed.

Print Assumptions C47_order.
Print Assumptions C47_results.
Print Assumptions C47_restore.
Print Assumptions C47_refused.
Print Assumptions C47_create_partial.
Print Assumptions C47_throw_refuted.
Print Assumptions C47_wrong_source_refuted.
