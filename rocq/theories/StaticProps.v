(** C112: a StaticSource serves the PVs which it has, and lets go of those removed. *)
From Coq Require Import List Bool Arith Lia.
From Verif Require Import StaticModel StaticSpec StaticProofs.
Import ListNotations.

(** After any calls, by any threads: searches are answered, names listed, and channels connected for exactly the names which the source holds, and to
    the PV held under that name.  A name which is held cannot be added again. *)
Theorem C112_names : forall es s, run fresh es = Some s ->
  (forall ns, step s (Search ns) = Some (s, OClaims (map (fun n => match holds es n with Some _ => true | None => false end) ns))) /\
  (forall h, exists l s', step s (Names h) = Some (s', ONames l) /\ NoDup l /\ forall n, In n l <-> holds es n <> None) /\
  (forall n p, holds es n <> None -> step s (Add n p) = Some (s, OThrows)) /\
  (forall n p, holds es n = None -> exists s', step s (Add n p) = Some (s', ODone)) /\
  (forall c n p, holds es n = Some p -> exists s1 s2, step s (Create c n) = Some (s1, ONothing) /\ step s1 (Attach c) = Some (s2, ODone) /\ connected s2 c n p) /\
  (forall c n, holds es n = None -> step s (Create c n) = Some (s, ORefused)).
Proof.
  intros es s R. destruct (inv_run es s R) as [F ND CA FR PV]. repeat split.
  - intro ns. cbn [step]. do 3 f_equal. apply map_ext. intro n. now rewrite F.
  - intro h. exists (map fst (pvs s)). assert (L : forall n, In n (map fst (pvs s)) <-> holds es n <> None) by (intro n; rewrite <- F; symmetry; apply find_in).
    cbn [step]. destruct (cache s) as [l|] eqn:C; [rewrite (CA l eq_refl); destruct h|]; eexists; (split; [reflexivity|auto]).
  - intros n p H. cbn [step]. rewrite F. destruct (holds es n); [reflexivity|congruence].
  - intros n p H. cbn [step]. rewrite F, H. eexists. reflexivity.
  - intros c n p H. cbn [step]. rewrite F, H. eexists. eexists. split; [reflexivity|]. cbn [creating List.find fst]. rewrite Nat.eqb_refl. split; [reflexivity|]. now left.
  - intros c n H. cbn [step]. now rewrite F, H.
Qed.

(** remove() and close() let go of the clients: any channel of a PV which is connected when remove() of its name or close() of the source begins has been closed,
    by the server or its client, when all of them have returned, whatever else happens meanwhile. *)
Theorem C112_disconnects : forall es s n p c m e es2 s', run fresh es = Some s -> holds es n = Some p -> connected s c m p ->
  e = Remove n \/ e = CloseAll -> run s (e :: es2) = Some s' -> closing s' = [] -> In c (closed s') \/ In (Gone c) es2.
Proof.
  intros es s n p c m e es2 s' R H C E R2 Z. destruct (inv_run es s R) as [F _ _ _ _]. cbn [run] in R2. destruct E as [-> | ->]; cbn [step] in R2.
  - rewrite F, H in R2. eapply due_closed; [exact R2|exact C|now left|exact Z].
  - eapply due_closed; [exact R2|exact C| |exact Z]. cbn. apply in_or_app. left. apply in_map_iff. exists (n, p). split; [reflexivity|]. apply find_some. now rewrite F.
Qed.
(** Closing a PV closes its channels, and leaves it without value; those of other PVs stay. *)
Theorem C112_close : forall s p l, take p (closing s) = Some l ->
  exists s', step s (CloseOne p) = Some (s', ODone) /\ ~ is_open s' p /\
    (forall c n, ~ connected s' c n p) /\ (forall c n q, q <> p -> (connected s' c n q <-> connected s c n q)) /\ (forall q, q <> p -> (is_open s' q <-> is_open s q)).
Proof.
  intros s p l T. cbn [step]. rewrite T. eexists. split; [reflexivity|]. unfold is_open, connected. cbn. repeat split.
  - intro H. apply filter_In in H. rewrite Nat.eqb_refl in H. now destruct H.
  - intros c n H. apply filter_In in H. unfold of_pv in H. cbn in H. rewrite Nat.eqb_refl in H. now destruct H.
  - intro X. apply filter_In in X. tauto.
  - intro X. apply filter_In. split; [exact X|]. unfold of_pv. cbn. now apply negb_true_iff, Nat.eqb_neq.
  - intro X. apply filter_In in X. tauto.
  - intro X. apply filter_In. split; [exact X|]. now apply negb_true_iff, Nat.eqb_neq.
Qed.
(** After remove() has returned nobody is connected to the PV, nor ever will be, until it is added again; if it was added under one name only and no client was about
    to connect.  Channels of other names are not touched. *)
Theorem C112_removed_partial : forall es n p es2 s2 es3 s3, one_name es p n ->
  run fresh (es ++ Remove n :: es2 ++ [CloseOne p]) = Some s2 -> ~ under_way s2 p -> run s2 es3 = Some s3 -> (forall m, ~ In (Add m p) (es2 ++ es3)) ->
  forall c m, ~ connected s3 c m p.
Proof.
  intros es n p es2 s2 es3 s3 ON R2 U R3 NA. destruct (inv_run _ s2 R2) as [F ND _ _ _].
  assert (NP : forall m, ~ In (m, p) (pvs s2)).
  { intros m H. apply (find_all _ _ _ ND) in H. rewrite F in H. unfold holds in H. rewrite rev_app_distr in H. cbn [rev] in H. rewrite rev_app_distr in H. cbn [rev app] in H. rewrite <- app_assoc in H. cbn [app held] in H.
    assert (G : forall l, (forall k, ~ In (Add k p) l) -> forall r, held (l ++ r) m = Some p -> held r m = Some p).
    { induction l as [|e l IH]; intros N r X; cbn [app] in X; [exact X|]. assert (N' : forall k, ~ In (Add k p) l) by (intros k Y; apply (N k); now right).
      destruct e as [k q|k| | | | | | | | |]; cbn [held] in X; try (now apply IH).
      - destruct (k =? m); [|now apply IH]. destruct (held (l ++ r) m) eqn:Y; [apply IH; [exact N'|congruence]|]. injection X as ->. elim (N k). now left.
      - destruct (k =? m); [discriminate|now apply IH]. }
    apply G in H. 2:{ intros k X. apply in_rev in X. apply (NA k). apply in_or_app. now left. }
    cbn [held] in H. destruct (n =? m) eqn:E; [discriminate|]. apply Nat.eqb_neq in E.
    assert (K : forall l, held l m = Some p -> In (Add m p) l).
    { induction l as [|e l IH]; cbn [held]; [discriminate|]. destruct e as [k q|k| | | | | | | | |]; try (intro; right; now apply IH).
      - destruct (k =? m) eqn:EK; [|intro; right; now apply IH]. apply Nat.eqb_eq in EK. subst k. destruct (held l m); [intro; right; now apply IH|]. intro Y. injection Y as ->. now left.
      - destruct (k =? m); [discriminate|intro; right; now apply IH]. }
    apply K in H. apply in_rev in H. apply ON in H. congruence. }
  assert (NC : forall c m, ~ connected s2 c m p).
  { replace (es ++ Remove n :: es2 ++ [CloseOne p]) with ((es ++ Remove n :: es2) ++ [CloseOne p]) in R2 by (rewrite <- app_assoc; reflexivity).
    rewrite run_app in R2. destruct (run fresh (es ++ Remove n :: es2)) as [s1|]; [|discriminate]. cbn [run] in R2. destruct (step s1 (CloseOne p)) as [(s2' & o)|] eqn:S; [|discriminate]. injection R2 as <-.
    pose proof S as S0. cbn [step] in S0. destruct (take p (closing s1)) as [l|] eqn:T; [|discriminate]. destruct (C112_close s1 p l T) as (x & X & _ & Y & _). rewrite S in X. injection X as <- _. exact Y. }
  assert (NA3 : forall m, ~ In (Add m p) es3) by (intros m X; apply (NA m); apply in_or_app; now right).
  exact (proj2 (proj2 (unreached p es3 s2 s3 NA3 R3 NP U NC))).
Qed.
Theorem C112_other_names_partial : forall es s p n s' o c m q, run fresh es = Some s -> one_name es p n -> step s (CloseOne p) = Some (s', o) ->
  connected s c m q -> m <> n -> connected s' c m q.
Proof.
  intros es s p n s' o c m q R ON S C N. destruct (inv_run es s R) as [_ _ _ FR _]. pose proof S as S0. cbn [step] in S0. destruct (take p (closing s)) as [l|] eqn:T; [|discriminate].
  destruct (C112_close s p l T) as (x & X & _ & _ & Y & _). rewrite S in X. injection X as <- _. apply Y; [|exact C]. intros ->. apply N. apply ON. apply (FR c). now left.
Qed.

(** ** Where it does not hold *)
(** A client which connects while the PV is removed: it stays connected, to a PV which no source has, and gets neither data nor a disconnect, until it
    leaves, or the application adds or closes the PV again. *)
Theorem C112_late_client_refuted : exists es n p c s, run fresh es = Some s /\ In (Remove n) es /\ holds es n = None /\ creating s = [] /\ closing s = [] /\ ~ is_open s p /\
  connected s c n p /\ forall es2 s2, (forall m, ~ In (Add m p) es2) -> ~ In (Close p) es2 -> ~ In (Gone c) es2 -> run s es2 = Some s2 -> connected s2 c n p.
Proof.
  exists [Add 0 7; Open 7; Create 5 0; Remove 0; CloseOne 7; Attach 5], 0, 7, 5. eexists. split; [reflexivity|]. split; [cbn; tauto|]. split; [reflexivity|]. split; [reflexivity|]. split; [reflexivity|].
  split; [easy|]. split; [now left|]. intros es2 s2 NA NC NG R.
  assert (G : forall es s s2, (forall m, ~ In (Add m 7) es) -> ~ In (Close 7) es -> ~ In (Gone 5) es -> run s es = Some s2 -> (forall m, ~ In (m, 7) (pvs s)) -> ~ In 7 (closing s) ->
    connected s 5 0 7 -> connected s2 5 0 7); [|eapply G; [exact NA|exact NC|exact NG|exact R| | |now left]; easy].
  clear. unfold connected. induction es as [|e es IH]; intros s s2 NA NC NG R P K C; cbn [run] in R; [now injection R as <-|]. destruct (step s e) as [(s1 & o)|] eqn:S; [|discriminate].
  apply (IH s1 s2); try (intros; intro H; eapply NA; right; exact H); try (intro H; apply NC; now right); try (intro H; apply NG; now right); try exact R; clear IH R.
  - intros n H. destruct e as [m q|m| |q|q|q|ns|c m|c|c|h]; cbn [step] in S.
    + destruct (is_some _); injection S as <- <-; [exact (P n H)|]. cbn [set_pvs pvs] in H. destruct H as [H|H]; [|exact (P n H)]. injection H as <- ->. apply (NA m). now left.
    + destruct (find m (pvs s)); injection S as <- <-; [|exact (P n H)]. cbn in H. apply filter_In in H. exact (P n (proj1 H)).
    + injection S as <- <-. exact (P n H).
    + destruct (take q (closing s)); [|discriminate]. injection S as <- <-. exact (P n H).
    + destruct (existsb _ _); injection S as <- <-; exact (P n H).
    + injection S as <- <-. exact (P n H).
    + injection S as <- <-. exact (P n H).
    + destruct (find m (pvs s)); injection S as <- <-; exact (P n H).
    + destruct (List.find _ _); [|discriminate]. injection S as <- <-. exact (P n H).
    + injection S as <- <-. exact (P n H).
    + destruct (cache s); [destruct h|]; injection S as <- <-; exact (P n H).
  - intro H. destruct e as [m q|m| |q|q|q|ns|c m|c|c|h]; cbn [step] in S.
    + destruct (is_some _); injection S as <- <-; exact (K H).
    + destruct (find m (pvs s)) as [q|] eqn:E; injection S as <- <-; [|exact (K H)]. destruct H as [->|H]; [|exact (K H)]. apply find_some in E. exact (P m E).
    + injection S as <- <-. cbn in H. apply in_app_iff in H. destruct H as [H|H]; [|exact (K H)]. apply in_map_iff in H. destruct H as ((m & q) & X & H). cbn in X. subst q. exact (P m H).
    + destruct (take q (closing s)) as [l|] eqn:T; [|discriminate]. injection S as <- <-. cbn in H. apply K. clear - T H. revert l T H. induction (closing s) as [|x r IH]; intros l T H; cbn [take] in T; [discriminate|].
      destruct (x =? q); [injection T as <-; now right|]. destruct (take q r); [|discriminate]. injection T as <-. destruct H as [->|H]; [now left|right; eauto].
    + destruct (existsb _ _); injection S as <- <-; exact (K H).
    + injection S as <- <-. exact (K H).
    + injection S as <- <-. exact (K H).
    + destruct (find m (pvs s)); injection S as <- <-; exact (K H).
    + destruct (List.find _ _); [|discriminate]. injection S as <- <-. exact (K H).
    + injection S as <- <-. exact (K H).
    + destruct (cache s); [destruct h|]; injection S as <- <-; exact (K H).
  - destruct e as [m q|m| |q|q|q|ns|c m|c|c|h]; cbn [step] in S.
    + destruct (is_some _); injection S as <- <-; exact C.
    + destruct (find m (pvs s)); injection S as <- <-; exact C.
    + injection S as <- <-. exact C.
    + destruct (take q (closing s)) as [l|] eqn:T; [|discriminate]. injection S as <- <-. cbn. apply filter_In. split; [exact C|]. unfold of_pv. cbn [snd].
      apply negb_true_iff, Nat.eqb_neq. intro X. subst q. apply K. exact (proj1 (take_in _ _ _ T)).
    + destruct (existsb _ _); injection S as <- <-; exact C.
    + injection S as <- <-. cbn. apply filter_In. split; [exact C|]. unfold of_pv. cbn [snd]. apply negb_true_iff, Nat.eqb_neq. intro X. subst q. apply NC. now left.
    + injection S as <- <-. exact C.
    + destruct (find m (pvs s)); injection S as <- <-; exact C.
    + destruct (List.find _ _); [|discriminate]. injection S as <- <-. now right.
    + injection S as <- <-. cbn. apply filter_In. split; [exact C|]. cbn [fst]. apply negb_true_iff, Nat.eqb_neq. intro X. subst c. apply NG. now left.
    + destruct (cache s); [destruct h|]; injection S as <- <-; exact C.
Qed.
(** A PV under two names: removing one of them disconnects the clients of the other, which the source still has. *)
Theorem C112_two_names_refuted : exists es n m p c s s', run fresh es = Some s /\ n <> m /\ connected s c m p /\ run s [Remove n; CloseOne p] = Some s' /\
  holds (es ++ [Remove n]) m = Some p /\ ~ connected s' c m p /\ In c (closed s').
Proof.
  exists [Add 0 7; Add 1 7; Open 7; Create 5 1; Attach 5], 0, 1, 7, 5. eexists. eexists. split; [reflexivity|]. split; [discriminate|]. split; [now left|]. split; [reflexivity|].
  split; [reflexivity|]. split; [intros []|now left].
Qed.

(** ** Examples *)
Definition two_pvs : list event := [Add 0 7; Open 7; Add 1 8; Open 8; Create 5 0; Attach 5; Create 6 1; Attach 6].
Example C112_example : exists s s2, run fresh two_pvs = Some s /\ holds two_pvs 0 = Some 7 /\ connected s 5 0 7 /\ one_name two_pvs 7 0 /\
  run s [Remove 0; CloseOne 7] = Some s2 /\ closing s2 = [] /\ ~ under_way s2 7 /\ closed s2 = [5] /\ attached s2 = [(6, (1, 8))].
Proof.
  let r := eval vm_compute in (run fresh two_pvs) in match r with Some ?s =>
    exists s; let r2 := eval vm_compute in (run s [Remove 0; CloseOne 7]) in match r2 with Some ?s2 => exists s2 end end.
  split; [vm_compute; reflexivity|]. split; [vm_compute; reflexivity|]. split; [right; now left|]. split.
  - intros m H. unfold two_pvs in H. cbn [In] in H. repeat (destruct H as [H|H]; [try discriminate H; try (now injection H as <-)|]). easy.
  - split; [vm_compute; reflexivity|]. split; [reflexivity|]. split; [intros (c & n & [])|]. split; reflexivity.
Qed.

Print Assumptions C112_names.
Print Assumptions C112_disconnects.
Print Assumptions C112_close.
Print Assumptions C112_removed_partial.
Print Assumptions C112_other_names_partial.
Print Assumptions C112_late_client_refuted.
Print Assumptions C112_two_names_refuted.
