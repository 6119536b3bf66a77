(** Each event is a series of small changes. *)
From Coq Require Import ZArith List Bool Arith Lia.
From Verif Require Import Base BaseProofs ChanModel ChanProofs.
Import ListNotations.

(** Channel::disconnect() up to what comes next *)
Definition downs (c : channel) : list out := flat_map (fun w => if snd w : bool then [ODown (fst w)] else []) (c_watch c).
Definition alive (c : channel) : list nat := filter (fun o => is_in o (c_refs c)) (c_ops c).
Definition losts (again : nat -> bool) (c : channel) : list out := map (fun o => if again o then OLost o else OFail o) (alive c).
Definition gone (again : nat -> bool) (c : channel) : channel :=
  {| c_name := c_name c; c_server := c_server c; c_state := Searching; c_conn := None; c_sid := spoilt;
     c_pending := c_pending c ++ filter again (alive c); c_ops := [];
     c_watch := map (fun w => (fst w, false)) (c_watch c); c_refs := c_refs c |}.
Definition left_ (i : nat) (c : channel) (k : conn) : conn := n_with_ops (filter (fun o => negb (is_in o (c_ops c))) (n_ops k)) (leave i c k).
Definition sends (i : nat) (c : channel) (k : option (nat * conn)) : list out :=
  match k, c_state c with
  | Some (n, k), Creating | Some (n, k), Active => if n_bev k then [ODestroy n (c_sid c) i] else []
  | _, _ => []
  end.
Definition disc (again : nat -> bool) (i : nat) (c : channel) (k : option (nat * conn)) (x : ctx) : ctx :=
  emit (sends i c k ++ downs c ++ losts again c)
    (set_chan i (Some (gone again c)) (match k with Some (n, k) => set_conn n (Some (left_ i c k)) x | None => x end)).
Definition attach1 (i n : nat) (c : channel) (k : conn) (x : ctx) : ctx :=
  set_chan i (Some (c_with_state Connecting (c_with_conn (Some n) c)))
    (set_conn n (Some (n_with_lists (with_ i (n_pending k)) (n_creating k) (n_bysid k) k)) x).
Definition creating1 (i n : nat) (c : channel) (k : conn) (x : ctx) : ctx :=
  emit [OCreate n i (c_name c)] (set_chan i (Some (c_with_state Creating c))
    (set_conn n (Some (n_with_lists (without i (n_pending k)) (with_ i (n_creating k)) (n_bysid k) k)) x)).
Definition newchan (name : str) (server : option Z) (x : ctx) : ctx :=
  set_names (x_names x ++ [((name, server), x_nc x)]) (set_chan (x_nc x) (Some (new_channel name server))
    (set_next (S (x_nc x)) (x_nn x) (x_no x) (x_nw x) x)).
Definition add_op (i : nat) (c : channel) (x : ctx) : ctx :=
  set_chan i (Some (c_with_refs (c_refs c ++ [x_no x]) (c_with_ops (c_pending c ++ [x_no x]) (c_ops c) c)))
    (set_next (x_nc x) (x_nn x) (S (x_no x)) (x_nw x) x).
Definition is_active (c : channel) : bool := match c_state c with Active => true | _ => false end.
Definition add_watch (i : nat) (c : channel) (x : ctx) : ctx :=
  emit [if is_active c then OUp (x_nw x) else ODown (x_nw x)]
    (set_chan i (Some (c_with_watch (c_watch c ++ [(x_nw x, is_active c)]) c)) (set_next (x_nc x) (x_nn x) (x_no x) (S (x_nw x)) x)).
Definition active1 (i n : nat) (sid : Z) (c : channel) (k : conn) (x : ctx) : ctx :=
  set_chan i (Some (c_with_state Active (c_with_sid sid c)))
    (set_conn n (Some (n_with_lists (n_pending k) (without i (n_creating k)) (without_sid sid (n_bysid k) ++ [(sid, i)]) k)) x).
Definition ups (c : channel) : list out := flat_map (fun w => if snd w : bool then [] else [OUp (fst w)]) (c_watch c).
Definition told (i : nat) (c : channel) (x : ctx) : ctx :=
  emit (ups c) (set_chan i (Some (c_with_watch (map (fun w => (fst w, true)) (c_watch c)) c)) x).
Definition refused1 (i n : nat) (c : channel) (k : conn) (x : ctx) : ctx :=
  set_search (x_search x ++ [i]) (set_chan i (Some (c_with_state Searching c))
    (set_conn n (Some (n_with_lists (n_pending k) (without i (n_creating k)) (n_bysid k) k)) x)).
Definition conn_of (x : ctx) (c : channel) : option (nat * conn) := match c_conn c with Some n => option_map (pair n) (x_conns x n) | None => None end.
Definition plain (o : out) : Prop := match o with OOpen _ _ | OEcho _ | ODestroy _ _ _ => True | _ => False end.

(** [h]: attempts to connect do not fail at once; [e1]: a channel which is between states;
    [e2]: a connection which is ending; [e3]: one which may have channels to create *)
Inductive prim (h : bool) (e1 e2 e3 : option nat) (x : ctx) : ctx -> Prop :=
| P_open a r ok x' n : x_run x = true -> x_addr x a = None -> build_conn a r ok x = (x', Some n) -> prim h e1 e2 e3 x x'
| P_attach i n c k : x_chans x i = Some c -> c_state c = Searching -> x_conns x n = Some k -> x_addr x (n_addr k) = Some n ->
    (n_ready k = true -> e3 = Some n) -> prim h e1 e2 e3 x (attach1 i n c k x)
| P_create i n c k : x_chans x i = Some c -> c_state c = Connecting -> c_conn c = Some n -> x_conns x n = Some k -> n_bev k = true -> n_ready k = true ->
    prim h e1 e2 e3 x (creating1 i n c k x)
| P_disc again i c : x_chans x i = Some c -> (c_state c <> Searching -> conn_of x c <> None) -> e1 = Some i -> prim h e1 e2 e3 x (disc again i c (conn_of x c) x)
| P_search i : prim h e1 e2 e3 x (set_search (x_search x ++ [i]) x)
| P_prune i : (forall c, x_chans x i = Some c -> c_state c <> Searching) -> prim h e1 e2 e3 x (set_search (without i (x_search x)) x)
| P_new name server : x_run x = true -> find_name (name, server) (x_names x) = None -> e1 = Some (x_nc x) -> prim h e1 e2 e3 x (newchan name server x)
| P_exec i c x' : x_chans x i = Some c -> create_operations i (add_op i c x) = Some x' -> prim h e1 e2 e3 x x'
| P_drop i op x' : drop_op i op x = Some x' -> prim h e1 e2 e3 x x'
| P_end i op x' : end_op i op x = Some x' -> prim h e1 e2 e3 x x'
| P_watch i c : x_chans x i = Some c -> prim h e1 e2 e3 x (add_watch i c x)
| P_unwatch i w c : x_chans x i = Some c ->
    prim h e1 e2 e3 x (set_chan i (Some (c_with_watch (filter (fun p => negb (Nat.eqb w (fst p))) (c_watch c)) c)) x)
| P_up n x' : tcp_up n x = Some x' -> prim h e1 e2 e3 x x'
| P_lost n k s t r : x_conns x n = Some k -> e2 = Some n -> (r = true -> n_ready k = true) -> prim h e1 e2 e3 x (set_conn n (Some (n_with_tcp s false t r k)) x)
| P_unreg a : prim h e1 e2 e3 x (set_addr a None x)
| P_valid n k : x_conns x n = Some k -> open k = true -> e3 = Some n ->
    prim h e1 e2 e3 x (set_conn n (Some (n_with_tcp (n_state k) (n_bev k) (n_timer k) true k)) x)
| P_refused i n c k : x_chans x i = Some c -> c_state c = Creating -> c_conn c = Some n -> x_conns x n = Some k -> prim h e1 e2 e3 x (refused1 i n c k x)
| P_active i n sid c k x2 c2 : x_chans x i = Some c -> c_state c = Creating -> c_conn c = Some n -> x_conns x n = Some k -> n_bev k = true ->
    ~ In sid (map fst (n_bysid k)) ->
    create_operations i (active1 i n sid c k x) = Some x2 -> x_chans x2 i = Some c2 -> prim h e1 e2 e3 x (told i c2 x2)
| P_tick n ok x' : (h = true -> ok = true) -> tick n ok x = Some x' -> prim h e1 e2 e3 x x'
| P_names l : (forall p, In p l -> In p (x_names x)) -> NoDup (map fst l) -> prim h e1 e2 e3 x (set_names l x)
| P_nsconn n k : x_conns x n = Some k -> prim h e1 e2 e3 x (set_conn n (Some (n_with_ns k)) x)
| P_ns l : (forall a n, In (a, Some n) l -> x_conns x n <> None) -> prim h e1 e2 e3 x (set_ns l x)
| P_stop : prim h e1 e2 e3 x (stop x)
| P_free_chan i c : x_chans x i = Some c -> held x i c = false -> c_state c = Searching -> c_conn c = None -> prim h e1 e2 e3 x (set_chan i None x)
| P_free_conn n k : x_conns x n = Some k -> used x n = false -> (forall a, x_addr x a <> Some n) -> prim h e1 e2 e3 x (set_conn n None x)
| P_emit l : Forall plain l -> prim h e1 e2 e3 x (emit l x)
| P_nop n k : x_conns x n = Some k -> prim h e1 e2 e3 x (set_conn n (Some k) x).
Inductive prims (h : bool) (e1 e2 e3 : option nat) : ctx -> ctx -> Prop :=
| Ps_nil x : prims h e1 e2 e3 x x
| Ps_cons x y z : prim h e1 e2 e3 x y -> prims h e1 e2 e3 y z -> prims h e1 e2 e3 x z.
Lemma prims_one h e1 e2 e3 x y : prim h e1 e2 e3 x y -> prims h e1 e2 e3 x y.
Proof. intros H. eapply Ps_cons; [exact H|apply Ps_nil]. Qed.
Lemma prims_app h e1 e2 e3 x y z : prims h e1 e2 e3 x y -> prims h e1 e2 e3 y z -> prims h e1 e2 e3 x z.
Proof. induction 1 as [|x y y' H R IH]; intros K; [exact K|]. eapply Ps_cons; [exact H|auto]. Qed.
Lemma prims_inv (P : ctx -> Prop) h e1 e2 e3 : (forall x y, P x -> prim h e1 e2 e3 x y -> P y) -> forall x y, P x -> prims h e1 e2 e3 x y -> P y.
Proof. intros H x y Px R. induction R as [|x y z K R IH]; [exact Px|]. apply IH, (H _ _ Px K). Qed.

(** ** The lists *)
Lemma coreA_tcp x n k k' : coreA x -> x_conns x n = Some k -> n_addr k' = n_addr k -> n_pending k' = n_pending k -> n_creating k' = n_creating k -> n_bysid k' = n_bysid k ->
  coreA (set_conn n (Some k') x).
Proof.
  intros C Ek A1 A2 A3 A4. apply (coreA_same x); try exact C; cbn; auto.
  - intros j c H. split; [apply (a_chan _ C _ _ H)|apply (a_has _ C _ _ H)].
  - intros m q H. apply upd_conn_cases in H. destruct H as [(-> & ->) | (N & H)]; [exists k; auto|exists q; auto].
  - intros m q H. unfold upd. destruct (Nat.eqb_spec m n); eauto.
Qed.
Lemma coreA_chan x i c c' : coreA x -> x_chans x i = Some c -> c_conn c' = c_conn c -> c_state c' = c_state c -> c_sid c' = c_sid c ->
  coreA (set_chan i (Some c') x).
Proof.
  intros C Ec A1 A2 A3. apply (coreA_same x); try exact C; cbn; auto.
  - intros j. unfold place. cbn. unfold upd. destruct (Nat.eqb_spec j i) as [-> | N]; [|reflexivity]. rewrite Ec, A1, A2, A3. reflexivity.
  - intros j c0 H. unfold upd in H. destruct (Nat.eqb_spec j i) as [-> | N].
    + inversion H; subst. split; [apply (a_chan _ C _ _ Ec)|]. rewrite A1, A2. apply (a_has _ C _ _ Ec).
    + split; [apply (a_chan _ C _ _ H)|apply (a_has _ C _ _ H)].
  - intros m q H. exists q. auto.
  - intros m q H. eauto.
Qed.
Lemma coreA_next a b c d x : coreA x -> x_nc x <= a -> x_nn x <= b -> coreA (set_next a b c d x).
Proof.
  intros [H1 H2 H3 H4 H5 H6 H7 H8 H9 H10] L1 L2. constructor; try assumption; cbn.
  - intros i c0 E. apply H1 in E. lia.
  - intros i c0 E. apply H2 in E. lia.
Qed.
Lemma coreA_names l x : coreA x -> coreA (set_names l x).
Proof. intros [H1 H2 H3 H4 H5 H6 H7 H8 H9 H10]. constructor; assumption. Qed.
Lemma coreA_create_operations i x x' : coreA x -> create_operations i x = Some x' -> coreA x'.
Proof.
  intros C E. unfold create_operations in E. destruct (x_chans x i) as [c|] eqn:Ec; [|discriminate].
  destruct (c_state c) eqn:Es; try (inversion E; subst; exact C).
  destruct (filter _ (c_pending c)) as [|o l] eqn:El.
  - inversion E; subst. apply (coreA_chan x i c); auto.
  - destruct (c_conn c) as [n|] eqn:En; [|discriminate]. destruct (x_conns x n) as [k|] eqn:Ek; [|discriminate]. destruct (n_bev k); [|discriminate].
    inversion E; subst. apply coreA_emit. apply (coreA_chan _ i c); auto. apply (coreA_tcp x n k); auto.
Qed.
Lemma coreA_leave_op i op x x' : coreA x -> leave_op i op x = Some x' -> coreA x'.
Proof.
  intros C E. unfold leave_op in E. destruct (x_chans x i) as [c|] eqn:Ec; [|inversion E; subst; exact C].
  destruct (is_in op (c_ops c)); [|inversion E; subst; exact C].
  destruct (c_conn c) as [n|] eqn:En; [|discriminate]. destruct (x_conns x n) as [k|] eqn:Ek; [|discriminate]. inversion E; subst.
  apply (coreA_chan _ i c); auto. apply (coreA_tcp x n k); auto.
Qed.
Lemma coreA_active1 x i n sid c k : coreA x -> x_chans x i = Some c -> c_state c = Creating -> c_conn c = Some n -> x_conns x n = Some k ->
  ~ In sid (map fst (n_bysid k)) -> coreA (active1 i n sid c k x).
Proof.
  intros C Ec Es En Ek Ns. unfold active1.
  assert (W : without_sid sid (n_bysid k) = n_bysid k).
  { unfold without_sid. clear - Ns. induction (n_bysid k) as [|p l IH]; cbn; [reflexivity|]. cbn in Ns.
    destruct (Z.eqb_spec sid (fst p)) as [E | N]; [exfalso; apply Ns; left; congruence|]. cbn. f_equal. apply IH. intros H. apply Ns. right. exact H. }
  rewrite W. apply (coreA_set_both x i c _ n k _ C Ec Ek).
  - split; [reflexivity|]. intros j N. cbn. rewrite in_without. split; [tauto|split; [intuition|]]. intros d. rewrite in_app_iff. cbn. split; [intros [H | [H | []]]; [exact H|congruence]|auto].
  - intros m N H. congruence.
  - left. exact En.
  - cbn. congruence.
  - pose proof (place_i x i c n Ec En) as Pl. rewrite Es in Pl.
    unfold placed. rewrite place_set. cbn [c_conn c_with_state c_with_sid c_state c_sid n_pending n_with_lists n_creating n_bysid]. rewrite En. split; [|split; [|split]].
    + rewrite (a_pend _ C _ _ _ Ek), Pl. split; intros (d & H); discriminate.
    + rewrite in_without. split; [intros (H & _); congruence|intros (d & H); discriminate].
    + intros d. rewrite in_app_iff, (a_sid _ C _ _ _ _ Ek), Pl. cbn. split; [intros [H | [H | []]]; [discriminate|congruence]|]. intros H. right. left. congruence.
    + rewrite map_app. cbn. pose proof (a_sids _ C _ _ Ek) as Nd. clear - Nd Ns. induction (map fst (n_bysid k)) as [|a l IH]; cbn; [constructor; [intros []|constructor]|].
      inversion Nd; subst. constructor; [|apply IH; auto; intros H; apply Ns; right; exact H].
      rewrite in_app_iff. cbn. intros [H | [H | []]]; [contradiction|]. apply Ns. left. congruence.
Qed.
Lemma coreA_refused x i n c k : coreA x -> x_chans x i = Some c -> c_state c = Creating -> c_conn c = Some n -> x_conns x n = Some k -> coreA (refused1 i n c k x).
Proof.
  intros C Ec Es En Ek. unfold refused1. apply coreA_search. apply (coreA_set_both x i c _ n k _ C Ec Ek).
  - split; [reflexivity|]. intros j N. cbn. rewrite in_without. split; [tauto|split; [intuition|]]. tauto.
  - intros m N H. congruence.
  - left. exact En.
  - cbn. congruence.
  - pose proof (place_i x i c n Ec En) as Pl. rewrite Es in Pl.
    unfold placed. rewrite place_set. cbn [c_conn c_with_state c_state c_sid n_pending n_with_lists n_creating n_bysid]. rewrite En. split; [|split; [|split]].
    + rewrite (a_pend _ C _ _ _ Ek), Pl. split; intros (d & H); discriminate.
    + rewrite in_without. split; [intros (H & _); congruence|intros (d & H); discriminate].
    + intros d. rewrite (a_sid _ C _ _ _ _ Ek), Pl. split; discriminate.
    + apply (a_sids _ C _ _ Ek).
Qed.
Lemma coreA_disc x again i c : coreA x -> x_chans x i = Some c -> coreA (disc again i c (conn_of x c) x).
Proof.
  intros C Ec. unfold disc. apply coreA_emit. unfold conn_of. destruct (c_conn c) as [n|] eqn:En.
  - destruct (a_live _ C i n (c_state c) (c_sid c) (place_i x i c n Ec En)) as (k & Ek). rewrite Ek. cbn [option_map].
    apply (coreA_set_both x i c _ n k _ C Ec Ek).
    + split; [unfold left_, leave; destruct (c_state c); reflexivity|]. intros j N. unfold left_, leave.
      assert (Sd : forall d, c_state c = Active -> In (d, j) (without_sid (c_sid c) (n_bysid k)) <-> In (d, j) (n_bysid k)).
      { intros d Es. rewrite in_without_sid. split; [tauto|]. intros H. split; [|exact H]. intros ->.
        assert (Ii : In (c_sid c, i) (n_bysid k)). { apply (a_sid _ C _ _ _ _ Ek). rewrite (place_i x i c n Ec En), Es. reflexivity. }
        apply N. pose proof (a_sids _ C _ _ Ek) as Nd. clear - Nd H Ii. induction (n_bysid k) as [|p l IH]; [destruct H|]. cbn in Nd. inversion Nd; subst.
        destruct H as [-> | H], Ii as [E | I].
        - congruence.
        - exfalso. apply H2. apply in_map_iff. exists (c_sid c, i). auto.
        - subst. exfalso. apply H2. apply in_map_iff. exists (c_sid c, j). auto.
        - auto. }
      destruct (c_state c) eqn:Es; cbn; rewrite ?in_without; repeat split; try tauto; try (intros; apply Sd; auto).
    + intros m N H. congruence.
    + right. right. reflexivity.
    + cbn. congruence.
    + pose proof (place_i x i c n Ec En) as Pl.
      assert (P0 : (In i (n_pending k) <-> c_state c = Connecting) /\ (In i (n_creating k) <-> c_state c = Creating) /\ (forall d, In (d, i) (n_bysid k) <-> c_state c = Active /\ c_sid c = d)).
      { split; [|split].
        - rewrite (a_pend _ C _ _ _ Ek), Pl. split; [intros (d & H); congruence|intros ->; eauto].
        - rewrite (a_crea _ C _ _ _ Ek), Pl. split; [intros (d & H); congruence|intros ->; eauto].
        - intros d. rewrite (a_sid _ C _ _ _ _ Ek), Pl. split; [intros H; split; congruence|intros (-> & ->); reflexivity]. }
      destruct P0 as (P1 & P2 & P3).
      unfold placed. rewrite place_set. cbn [c_conn gone].
      assert (Z : forall A (Q : A -> Prop), (forall a, ~ Q a) -> ((exists a, Q a) <-> False)) by (intros A Q H; split; [intros (a & K); apply (H a K)|tauto]).
      unfold left_, leave. split; [|split; [|split]].
      * destruct (c_state c) eqn:Es; cbn; rewrite ?in_without, ?P1; (split; [intros H; exfalso; intuition congruence|intros (d & H); discriminate]).
      * destruct (c_state c) eqn:Es; cbn; rewrite ?in_without, ?P2; (split; [intros H; exfalso; intuition congruence|intros (d & H); discriminate]).
      * intros d. destruct (c_state c) eqn:Es; cbn; rewrite ?in_without_sid, ?P3; (split; [intros H; exfalso; intuition congruence|discriminate]).
      * destruct (c_state c); cbn; try apply (a_sids _ C _ _ Ek). apply nodup_filter, (a_sids _ C _ _ Ek).
  - assert (Es : c_state c = Searching). { destruct (c_state c) eqn:Es; auto; exfalso; apply (a_has _ C _ _ Ec); congruence. }
    apply (coreA_same x); try exact C; cbn; auto.
    + intros j. unfold place. cbn. unfold upd. destruct (Nat.eqb_spec j i) as [-> | N]; [|reflexivity]. rewrite Ec, En. reflexivity.
    + intros j c0 H. unfold upd in H. destruct (Nat.eqb_spec j i) as [-> | N].
      * inversion H; subst. split; [apply (a_chan _ C _ _ Ec)|cbn; congruence].
      * split; [apply (a_chan _ C _ _ H)|apply (a_has _ C _ _ H)].
    + intros m q H. exists q. auto.
    + intros m q H. eauto.
Qed.
Lemma used_false x n : coreA x -> used x n = false -> (forall i s d, place x i <> Some (n, s, d)) /\ (forall a, ~ In (a, Some n) (x_ns x)).
Proof.
  intros C U. unfold used in U. apply orb_false_iff in U. destruct U as (U1 & U2). split.
  - intros i s d H. assert (E : exists c, x_chans x i = Some c /\ c_conn c = Some n).
    { unfold place in H. destruct (x_chans x i) as [c|]; [|discriminate]. exists c. split; [reflexivity|]. destruct (c_conn c); [|discriminate]. inversion H. reflexivity. }
    destruct E as (c & Ec & En). assert (T : existsb (fun i => match x_chans x i with Some c => match c_conn c with Some m => Nat.eqb n m | None => false end | None => false end) (seq 0 (x_nc x)) = true).
    { apply existsb_exists. exists i. split; [apply in_seq; pose proof (a_chan _ C _ _ Ec); lia|]. rewrite Ec, En. apply Nat.eqb_refl. }
    congruence.
  - intros a I. assert (T : existsb (fun p => match snd p with Some m => Nat.eqb n m | None => false end) (x_ns x) = true).
    { apply existsb_exists. exists (a, Some n). split; [exact I|]. apply Nat.eqb_refl. }
    congruence.
Qed.
Theorem coreA_prim h e1 e2 e3 x y : coreA x -> prim h e1 e2 e3 x y -> coreA y.
Proof.
  intros C P. destruct P as
   [a r ok x' n Hr Ha E | i n c k Ec Es Ek Ea Hr | i n c k Ec Es En Ek Hb Hr | again i c Ec Hk He | i | i Hp | name server Hr Hn He
   | i c x' Ec E | i op x' E | i op x' E | i c Ec | i w c Ec | n x' E | n k s t r Ek He Hs | a | n k Ek Ho He | i n c k Ec Es En Ek | i n sid c k x2 c2 Ec Es En Ek Hb Ns E E2
   | n ok x' Hh E | l Hl Nd | n k Ek | l Hl | | i c Ec Hh Es En | n k Ek Hu Ha | l Hl | n k Ek].
  - apply (coreA_build_conn a r ok x x' (Some n) C E).
  - apply coreA_attach1; assumption.
  - apply (coreA_create_one n i x); [exact C|intros c0 E0; congruence|]. unfold create_one. rewrite Ek, Ec, Es, Hb. reflexivity.
  - apply coreA_disc; assumption.
  - apply coreA_search, C.
  - apply coreA_search, C.
  - unfold newchan. apply coreA_names.
    assert (F : x_chans x (x_nc x) = None). { destruct (x_chans x (x_nc x)) eqn:F; [|reflexivity]. apply (a_chan _ C) in F. lia. }
    assert (Pl : forall j, place (set_chan (x_nc x) (Some (new_channel name server)) (set_next (S (x_nc x)) (x_nn x) (x_no x) (x_nw x) x)) j = place x j).
    { intros j. unfold place. cbn. unfold upd. destruct (Nat.eqb_spec j (x_nc x)) as [-> | N]; [rewrite F|]; reflexivity. }
    apply (coreA_same x); try exact C; auto.
    + intros j c0 H. cbn in H |- *. unfold upd in H. destruct (Nat.eqb_spec j (x_nc x)) as [-> | N].
      * inversion H; subst. split; [lia|cbn; congruence].
      * split; [pose proof (a_chan _ C _ _ H); lia|apply (a_has _ C _ _ H)].
    + intros m q H. exists q. auto.
    + intros m q H. cbn. eauto.
  - apply (coreA_create_operations i _ _) in E; [exact E|]. unfold add_op. apply (coreA_chan _ i c); auto. apply coreA_next; auto.
  - unfold drop_op, bind in E. destruct (leave_op i op x) as [x1|] eqn:E1; [|discriminate]. apply coreA_leave_op in E1; [|exact C].
    destruct (x_chans x1 i) as [c|] eqn:Ec; inversion E; subst; [|exact E1]. apply (coreA_chan _ i c); auto.
  - unfold end_op, bind in E. destruct (x_chans x i) as [c|]; [|inversion E; subst; exact C]. destruct (is_in op (c_ops c)); [|inversion E; subst; exact C].
    destruct (leave_op i op x) as [x1|] eqn:E1; [|discriminate]. apply coreA_leave_op in E1; [|exact C]. inversion E; subst. apply coreA_emit, E1.
  - unfold add_watch. apply coreA_emit. apply (coreA_chan _ i c); auto. apply coreA_next; auto.
  - apply (coreA_chan _ i c); auto.
  - unfold tcp_up in E. destruct (x_conns x n) as [k|] eqn:Ek; [|inversion E; subst; exact C].
    destruct (n_state k); try (inversion E; subst; exact C). destruct (n_bev k); inversion E; subst; [|exact C]. apply (coreA_tcp x n k); auto.
  - apply (coreA_tcp x n k); auto.
  - apply (coreA_same x); try exact C; cbn; auto.
    + intros j c H. split; [apply (a_chan _ C _ _ H)|apply (a_has _ C _ _ H)].
    + intros b n H. destruct (Z.eqb b a); [discriminate|exact H].
    + intros m q H. exists q. auto.
    + intros m q H. eauto.
  - apply (coreA_tcp x n k); auto.
  - apply coreA_refused; assumption.
  - unfold told. apply coreA_emit. apply (coreA_chan _ i c2); auto. apply (coreA_create_operations _ _ _ (coreA_active1 x i n sid c k C Ec Es En Ek Ns) E).
  - unfold tick in E. destruct (x_conns x n) as [k|] eqn:Ek; [|inversion E; subst; exact C]. destruct (n_timer k); [|inversion E; subst; exact C].
    destruct (n_state k); try (inversion E; subst; apply coreA_emit, C).
    destruct ok; inversion E; subst; [apply coreA_emit|]; apply (coreA_tcp x n k); auto.
  - apply coreA_names, C.
  - apply (coreA_tcp x n k); auto.
  - destruct C as [H1 H2 H3 H4 H5 H6 H7 H8 H9 H10]. constructor; try assumption. cbn. intros a n I. specialize (Hl a n I). destruct (x_conns x n); [eauto|congruence].
  - apply (coreA_same x); try exact C; cbn; auto.
    + intros j c H. split; [apply (a_chan _ C _ _ H)|apply (a_has _ C _ _ H)].
    + discriminate.
    + intros m q H. exists q. auto.
    + intros m q H. eauto.
  - apply (coreA_same x); try exact C; cbn; auto.
    + intros j. unfold place. cbn. unfold upd. destruct (Nat.eqb_spec j i) as [-> | N]; [|reflexivity]. rewrite Ec, En. reflexivity.
    + intros j c0 H. unfold upd in H. destruct (Nat.eqb_spec j i) as [-> | N]; [discriminate|]. split; [apply (a_chan _ C _ _ H)|apply (a_has _ C _ _ H)].
    + intros m q H. exists q. auto.
    + intros m q H. eauto.
  - destruct (used_false x n C Hu) as (U1 & U2). destruct C as [H1 H2 H3 H4 H5 H6 H7 H8 H9 H10].
    assert (K : forall m q, upd (x_conns x) n None m = Some q -> m <> n /\ x_conns x m = Some q).
    { intros m q. unfold upd. destruct (Nat.eqb_spec m n); [discriminate|auto]. }
    constructor; cbn.
    + exact H1.
    + intros m q H. apply K in H. apply (H2 m q), H.
    + intros a m H. destruct (H3 _ _ H) as (q & Eq & Ea). exists q. split; [|exact Ea]. rewrite upd_other; [exact Eq|]. intros ->. apply (Ha _ H).
    + intros i m s d H. destruct (H4 _ _ _ _ H) as (q & Eq). exists q. rewrite upd_other; [exact Eq|]. intros ->. apply (U1 _ _ _ H).
    + exact H5.
    + intros m q i H. apply K in H. apply (H6 m q i), H.
    + intros m q i H. apply K in H. apply (H7 m q i), H.
    + intros m q i d H. apply K in H. apply (H8 m q i d), H.
    + intros m q H. apply K in H. apply (H9 m q), H.
    + intros a m H. destruct (H10 _ _ H) as (q & Eq). exists q. rewrite upd_other; [exact Eq|]. intros ->. apply (U2 _ H).
  - apply coreA_emit, C.
  - apply (coreA_tcp x n k); auto.
Qed.
