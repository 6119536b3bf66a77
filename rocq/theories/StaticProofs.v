(** Proofs on StaticSource. *)
From Coq Require Import List Bool Arith Lia.
From Verif Require Import StaticModel StaticSpec.
Import ListNotations.

Lemma run_app a b s : run s (a ++ b) = match run s a with Some s' => run s' b | None => None end.
Proof. revert s. induction a as [|e a IH]; intro s; cbn [app run]; [reflexivity|]. destruct (step s e) as [(s1 & o)|]; auto. Qed.
Lemma find_erase n m l : find m (erase n l) = if n =? m then None else find m l.
Proof.
  induction l as [|(k & p) l IH]; cbn [erase filter find fst]; [now destruct (n =? m)|]. fold (erase n l). destruct (k =? n) eqn:E; cbn [negb].
  - rewrite IH. apply Nat.eqb_eq in E. subst k. destruct (n =? m); reflexivity.
  - cbn [find]. rewrite IH. destruct (k =? m) eqn:E2; [|reflexivity]. apply Nat.eqb_eq in E2. subst k. rewrite Nat.eqb_sym in E. now rewrite E.
Qed.
Lemma find_in n l : find n l <> None <-> In n (map fst l).
Proof.
  induction l as [|(k & p) l IH]; cbn [find map fst In]; [easy|]. destruct (k =? n) eqn:E.
  - apply Nat.eqb_eq in E. split; [auto|discriminate].
  - apply Nat.eqb_neq in E. rewrite IH. split; [auto|intros [H|H]; [easy|exact H]].
Qed.
Lemma find_some n l p : find n l = Some p -> In (n, p) l.
Proof. induction l as [|(k & q) l IH]; cbn [find In]; [discriminate|]. destruct (k =? n) eqn:E; [|auto]. intro H. injection H as ->. apply Nat.eqb_eq in E. subst. now left. Qed.
Lemma find_all n l p : NoDup (map fst l) -> In (n, p) l -> find n l = Some p.
Proof.
  induction l as [|(k & q) l IH]; cbn [find In map fst]; [easy|]. intros N [H|H]; inversion N as [|? ? N1 N2]; subst.
  - injection H as -> ->. now rewrite Nat.eqb_refl.
  - destruct (k =? n) eqn:E; [|auto]. apply Nat.eqb_eq in E. subst. elim N1. apply in_map_iff. exists (n, p). auto.
Qed.
Lemma nodup_erase n l : NoDup (map fst l) -> NoDup (map fst (erase n l)).
Proof.
  induction l as [|(k & q) l IH]; cbn [erase filter map fst]; [auto|]. fold (erase n l). intro N. inversion N as [|? ? N1 N2]; subst. destruct (k =? n); cbn [negb map fst]; [auto|].
  constructor; [|auto]. intro H. apply N1. apply in_map_iff in H. destruct H as (x & H1 & H2). apply filter_In in H2. apply in_map_iff. exists x. tauto.
Qed.
Lemma take_in p l l' : take p l = Some l' -> In p l /\ forall q, q <> p -> In q l -> In q l'.
Proof.
  revert l'. induction l as [|q l IH]; intros l'; cbn [take]; [discriminate|]. destruct (q =? p) eqn:E.
  - intro H. injection H as <-. apply Nat.eqb_eq in E. subst. split; [now left|]. intros x N [->|H]; [easy|exact H].
  - destruct (take p l) as [l0|]; [|discriminate]. intro H. injection H as <-. destruct (IH l0 eq_refl) as (I1 & I2). split; [now right|]. intros x N [->|H]; [now left|right; auto].
Qed.

Record inv (es : list event) (s : st) : Prop := {
  i_find : forall n, find n (pvs s) = holds es n;
  i_nd : NoDup (map fst (pvs s));
  i_cache : forall l, cache s = Some l -> l = map fst (pvs s);
  i_from : forall c n p, In (c, (n, p)) (attached s) \/ In (c, (n, p)) (creating s) -> In (Add n p) es;
  i_pv : forall n p, find n (pvs s) = Some p -> In (Add n p) es }.
Lemma holds_snoc es e n : holds (es ++ [e]) n = held (e :: rev es) n.
Proof. unfold holds. now rewrite rev_unit. Qed.
Lemma inv_step es s e s' o : inv es s -> step s e = Some (s', o) -> inv (es ++ [e]) s'.
Proof.
  intros [F ND C FR PV] S.
  assert (FR' : forall c n p, In (c, (n, p)) (attached s) \/ In (c, (n, p)) (creating s) -> In (Add n p) (es ++ [e])) by (intros c n p H; apply in_or_app; left; eauto).
  assert (PV' : forall n p, find n (pvs s) = Some p -> In (Add n p) (es ++ [e])) by (intros n p H; apply in_or_app; left; eauto).
  assert (F' : (forall n p, e <> Add n p) -> (forall n, e <> Remove n) -> forall n, find n (pvs s) = holds (es ++ [e]) n).
  { intros N1 N2 n. rewrite holds_snoc, F. unfold holds. destruct e; try reflexivity; [now elim (N1 n0 p)|now elim (N2 n0)]. }
  destruct e as [n p|n| |p|p|p|ns|c n|c|c|h]; cbn [step] in S.
  - destruct (find n (pvs s)) as [q|] eqn:E; cbn [is_some] in S; injection S as <- <-.
    + split; auto. intro k. rewrite holds_snoc, F. cbn [held]. fold (holds es k). destruct (n =? k) eqn:EK; [|reflexivity]. apply Nat.eqb_eq in EK. subst k. rewrite F in E. now rewrite E.
    + split; cbn [set_pvs pvs cache attached creating]; auto; try discriminate.
      * intro k. rewrite holds_snoc. cbn [held find]. fold (holds es k). rewrite <- F. destruct (n =? k) eqn:EK; [|reflexivity]. apply Nat.eqb_eq in EK. subst k. now rewrite E.
      * cbn [map fst]. constructor; [|exact ND]. intro H. apply find_in in H. congruence.
      * intros k q. cbn [find]. destruct (n =? k) eqn:EK; [|apply PV']. intro H. injection H as ->. apply Nat.eqb_eq in EK. subst k. apply in_or_app. right. now left.
  - destruct (find n (pvs s)) as [q|] eqn:E; injection S as <- <-.
    + split; cbn [set_closing set_pvs pvs cache attached creating]; auto; try discriminate.
      * intro k. rewrite holds_snoc, find_erase. cbn [held]. fold (holds es k). rewrite <- F. reflexivity.
      * now apply nodup_erase.
      * intros k r. rewrite find_erase. destruct (n =? k); [discriminate|apply PV'].
    + split; auto. intro k. rewrite holds_snoc, F. cbn [held]. fold (holds es k). destruct (n =? k) eqn:EK; [|reflexivity]. apply Nat.eqb_eq in EK. subst k. now rewrite <- F.
  - injection S as <- <-. split; cbn [set_closing pvs cache attached creating]; auto. apply F'; discriminate.
  - destruct (take p (closing s)) as [l|]; [|discriminate]. injection S as <- <-. split; cbn [close_pv set_closing pvs cache attached creating]; auto; [apply F'; discriminate|].
    intros c n q [H|H]; [apply filter_In in H; destruct H as (H & _)|]; eauto.
  - destruct (existsb _ _); injection S as <- <-; split; cbn; auto; apply F'; discriminate.
  - injection S as <- <-. split; cbn [close_pv set_closing pvs cache attached creating]; auto; [apply F'; discriminate|].
    intros c n q [H|H]; [apply filter_In in H; destruct H as (H & _)|]; eauto.
  - injection S as <- <-. split; auto. apply F'; discriminate.
  - destruct (find n (pvs s)) as [q|] eqn:E; injection S as <- <-.
    + split; cbn [pvs cache attached creating]; auto; [apply F'; discriminate|]. intros c' n' q' [H|[H|H]]; eauto. injection H as <- <- <-. eauto.
    + split; auto. apply F'; discriminate.
  - destruct (List.find _ (creating s)) as [x|] eqn:E; [|discriminate]. injection S as <- <-. split; cbn [pvs cache attached creating]; auto; [apply F'; discriminate|].
    intros c' n' q' [[H|H]|H]; eauto; [subst x; apply List.find_some in E; destruct E|apply filter_In in H; destruct H]; eauto.
  - injection S as <- <-. split; cbn [pvs cache attached creating]; auto; [apply F'; discriminate|]. intros c' n' q' [H|H]; [apply filter_In in H; destruct H|]; eauto.
  - assert (X : s' = s \/ s' = set_pvs (pvs s) (Some (map fst (pvs s))) s).
    { destruct (cache s); [destruct h|]; injection S as <- <-; auto. }
    destruct X as [-> | ->]; split; cbn [set_pvs pvs cache attached creating]; auto; try (apply F'; discriminate). intros l H. now injection H as <-.
Qed.
Lemma inv_run es : forall s, run fresh es = Some s -> inv es s.
Proof.
  induction es as [|e es IH] using rev_ind; intros s R.
  - cbn in R. injection R as <-. split; cbn; try easy; try (constructor; fail). intros c n p [[]|[]].
  - rewrite run_app in R. destruct (run fresh es) as [s1|]; [|discriminate]. cbn [run] in R. destruct (step s1 e) as [(s2 & o)|] eqn:E; [|discriminate]. injection R as <-.
    eapply inv_step; eauto.
Qed.
(** a PV which nobody can reach any more stays so *)
Lemma unreached p es : forall s s', (forall n, ~ In (Add n p) es) -> run s es = Some s' ->
  (forall n, ~ In (n, p) (pvs s)) -> ~ under_way s p -> (forall c n, ~ connected s c n p) ->
  (forall n, ~ In (n, p) (pvs s')) /\ ~ under_way s' p /\ (forall c n, ~ connected s' c n p).
Proof.
  unfold under_way, connected. induction es as [|e es IH]; intros s s' NA R P U C; cbn [run] in R; [injection R as <-; auto|].
  destruct (step s e) as [(s1 & o)|] eqn:S; [|discriminate]. assert (NA' : forall n, ~ In (Add n p) es) by (intros n H; apply (NA n); now right).
  assert (NE : forall n, e <> Add n p) by (intros n ->; apply (NA n); now left). apply (IH s1 s' NA' R); clear IH R NA NA'.
  - intros n H. destruct e as [m q|m| |q|q|q|ns|c m|c|c|h]; cbn [step] in S.
    + destruct (is_some _); injection S as <- <-; [exact (P n H)|]. cbn [set_pvs pvs] in H. destruct H as [H|H]; [|exact (P n H)]. injection H as <- <-. now elim (NE m).
    + destruct (find m (pvs s)); injection S as <- <-; [|exact (P n H)]. cbn in H. apply filter_In in H. exact (P n (proj1 H)).
    + injection S as <- <-. exact (P n H).
    + destruct (take q (closing s)); [|discriminate]. injection S as <- <-. exact (P n H).
    + destruct (existsb _ _); injection S as <- <-; exact (P n H).
    + injection S as <- <-. exact (P n H).
    + injection S as <- <-. exact (P n H).
    + destruct (find m (pvs s)); injection S as <- <-; exact (P n H).
    + destruct (List.find _ _); [|discriminate]. injection S as <- <-. exact (P n H).
    + injection S as <- <-. exact (P n H).
    + destruct (cache s); [destruct h|]; injection S as <- <-; exact (P n H).
  - intros (c0 & n & H). destruct e as [m q|m| |q|q|q|ns|c m|c|c|h]; cbn [step] in S.
    + destruct (is_some _); injection S as <- <-; apply U; eauto.
    + destruct (find m (pvs s)); injection S as <- <-; apply U; eauto.
    + injection S as <- <-. apply U; eauto.
    + destruct (take q (closing s)); [|discriminate]. injection S as <- <-. apply U; eauto.
    + destruct (existsb _ _); injection S as <- <-; apply U; eauto.
    + injection S as <- <-. apply U; eauto.
    + injection S as <- <-. apply U; eauto.
    + destruct (find m (pvs s)) as [q|] eqn:E; injection S as <- <-; [|apply U; eauto]. destruct H as [H|H]; [|apply U; eauto]. injection H as <- <- ->. apply find_some in E. exact (P m E).
    + destruct (List.find _ _); [|discriminate]. injection S as <- <-. cbn in H. apply filter_In in H. apply U. exists c0, n. tauto.
    + injection S as <- <-. apply U; eauto.
    + destruct (cache s); [destruct h|]; injection S as <- <-; apply U; eauto.
  - intros c0 n H. destruct e as [m q|m| |q|q|q|ns|c m|c|c|h]; cbn [step] in S.
    + destruct (is_some _); injection S as <- <-; exact (C c0 n H).
    + destruct (find m (pvs s)); injection S as <- <-; exact (C c0 n H).
    + injection S as <- <-. exact (C c0 n H).
    + destruct (take q (closing s)); [|discriminate]. injection S as <- <-. cbn in H. apply filter_In in H. exact (C c0 n (proj1 H)).
    + destruct (existsb _ _); injection S as <- <-; exact (C c0 n H).
    + injection S as <- <-. cbn in H. apply filter_In in H. exact (C c0 n (proj1 H)).
    + injection S as <- <-. exact (C c0 n H).
    + destruct (find m (pvs s)); injection S as <- <-; exact (C c0 n H).
    + destruct (List.find _ _) as [x|] eqn:E; [|discriminate]. injection S as <- <-. cbn in H. destruct H as [->|H]; [|exact (C c0 n H)]. apply List.find_some in E. apply U. exists c0, n. tauto.
    + injection S as <- <-. cbn in H. apply filter_In in H. exact (C c0 n (proj1 H)).
    + destruct (cache s); [destruct h|]; injection S as <- <-; exact (C c0 n H).
Qed.
Lemma closed_stay es : forall s s' c, run s es = Some s' -> In c (closed s) -> In c (closed s').
Proof.
  induction es as [|e es IH]; intros s s' c R H; cbn [run] in R; [now injection R as <-|]. destruct (step s e) as [(s1 & o)|] eqn:S; [|discriminate]. apply (IH s1 s' c R). clear IH R.
  destruct e as [m q|m| |q|q|q|ns|c' m|c'|c'|h]; cbn [step] in S.
  + destruct (is_some _); injection S as <- <-; exact H.
  + destruct (find m (pvs s)); injection S as <- <-; exact H.
  + injection S as <- <-. exact H.
  + destruct (take q (closing s)); [|discriminate]. injection S as <- <-. cbn. apply in_or_app. now right.
  + destruct (existsb _ _); injection S as <- <-; exact H.
  + injection S as <- <-. cbn. apply in_or_app. now right.
  + injection S as <- <-. exact H.
  + destruct (find m (pvs s)); injection S as <- <-; exact H.
  + destruct (List.find _ _); [|discriminate]. injection S as <- <-. exact H.
  + injection S as <- <-. exact H.
  + destruct (cache s); [destruct h|]; injection S as <- <-; exact H.
Qed.
Lemma close_closes p s c n : In (c, (n, p)) (attached s) -> In c (closed (close_pv p s)).
Proof. intro H. cbn. apply in_or_app. left. apply in_map_iff. exists (c, (n, p)). split; [reflexivity|]. apply filter_In. split; [exact H|]. apply Nat.eqb_refl. Qed.
(** a channel of a PV which is going to be closed *)
Lemma due_closed c n p es : forall s s', run s es = Some s' -> In (c, (n, p)) (attached s) -> In p (closing s) -> closing s' = [] -> In c (closed s') \/ In (Gone c) es.
Proof.
  induction es as [|e es IH]; intros s s' R A D Z; cbn [run] in R; [injection R as <-; rewrite Z in D; easy|]. destruct (step s e) as [(s1 & o)|] eqn:S; [|discriminate].
  assert (X : (In (c, (n, p)) (attached s1) /\ In p (closing s1)) \/ In c (closed s1) \/ e = Gone c).
  { destruct e as [m q|m| |q|q|q|ns|c' m|c'|c'|h]; cbn [step] in S.
    + destruct (is_some _); injection S as <- <-; auto.
    + destruct (find m (pvs s)); injection S as <- <-; auto. left. split; [exact A|]. now right.
    + injection S as <- <-. left. split; [exact A|]. cbn. apply in_or_app. now right.
    + destruct (take q (closing s)) as [l|] eqn:T; [|discriminate]. injection S as <- <-. destruct (Nat.eq_dec q p) as [->|N].
      * right. left. apply (close_closes p (set_closing l s) c n). exact A.
      * left. split; [|cbn; apply (take_in _ _ _ T); auto]. cbn. apply filter_In. split; [exact A|]. unfold of_pv. cbn. apply negb_true_iff, Nat.eqb_neq. congruence.
    + destruct (existsb _ _); injection S as <- <-; auto.
    + injection S as <- <-. destruct (Nat.eq_dec q p) as [->|N].
      * right. left. apply (close_closes p s c n). exact A.
      * left. split; [|exact D]. cbn. apply filter_In. split; [exact A|]. unfold of_pv. cbn. apply negb_true_iff, Nat.eqb_neq. congruence.
    + injection S as <- <-. auto.
    + destruct (find m (pvs s)); injection S as <- <-; auto.
    + destruct (List.find _ _); [|discriminate]. injection S as <- <-. left. split; [now right|exact D].
    + injection S as <- <-. destruct (Nat.eq_dec c' c) as [->|N]; [auto|]. left. split; [|exact D]. cbn. apply filter_In. split; [exact A|]. cbn. apply negb_true_iff, Nat.eqb_neq. congruence.
    + destruct (cache s); [destruct h|]; injection S as <- <-; auto. }
  destruct X as [(A1 & D1)|[X|X]].
  - destruct (IH s1 s' R A1 D1 Z) as [H|H]; [now left|right; now right].
  - left. eapply closed_stay; eauto.
  - right. now left.
Qed.
