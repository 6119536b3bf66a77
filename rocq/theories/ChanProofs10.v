(** Channels can always go on. *)
From Coq Require Import ZArith List Bool Arith Lia.
From Verif Require Import Base BaseProofs ChanModel ChanSpec ChanProofs ChanProofs2 ChanProofs3 ChanProofs4 ChanProofs5 ChanProofs6 ChanProofs7 ChanProofs8 ChanProofs9.
Import ListNotations.

Lemma fine_attended x i c : fine true x -> x_run x = true -> x_chans x i = Some c -> attended x i c.
Proof.
  intros G Hr Ec. pose proof (gA _ _ _ _ _ G) as A. unfold attended.
  assert (Hon : c_state c <> Searching -> exists n k, c_conn c = Some n /\ x_conns x n = Some k /\ place x i = Some (n, c_state c, c_sid c)).
  { intros Ns. pose proof (a_has _ A _ _ Ec Ns) as Hc. destruct (c_conn c) as [n|] eqn:En; [|congruence]. destruct (conn_of_some x i c n A Ec En) as (k & Ek & _). exists n, k. split; [reflexivity|]. split; [exact Ek|apply place_i; assumption]. }
  destruct (c_state c) eqn:Es.
  - apply (gE _ _ _ _ _ G eq_refl Hr i c Ec Es). discriminate.
  - destruct (Hon ltac:(discriminate)) as (n & k & En & Ek & Pl). exists n, k. split; [exact En|]. split; [exact Ek|]. destruct (f_fit _ _ _ _ (gF _ _ _ _ _ G) _ _ Ek) as (F1 & F2 & F3 & F4 & F5 & F6).
    assert (I : In i (n_pending k)) by (apply (a_pend _ A _ _ _ Ek); eauto). split; [exact I|]. split.
    + destruct (n_ready k); [|reflexivity]. rewrite F3 in I; [destruct I|discriminate|reflexivity].
    + destruct (n_bev k); [left; reflexivity|]. destruct F4 as [F4 | F4]; auto; [discriminate|]. rewrite F4 in I. destruct I.
  - destruct (Hon ltac:(discriminate)) as (n & k & En & Ek & Pl). exists n, k. split; [exact En|]. split; [exact Ek|]. destruct (f_fit _ _ _ _ (gF _ _ _ _ _ G) _ _ Ek) as (F1 & F2 & _).
    assert (I : In i (n_creating k)) by (apply (a_crea _ A _ _ _ Ek); eauto). split; [exact I|]. destruct (n_bev k) eqn:Bk; [reflexivity|]. destruct F2 as (F2 & _); auto; [discriminate|]. rewrite F2 in I. destruct I.
  - destruct (Hon ltac:(discriminate)) as (n & k & En & Ek & Pl). exists n, k. split; [exact En|]. split; [exact Ek|]. destruct (f_fit _ _ _ _ (gF _ _ _ _ _ G) _ _ Ek) as (F1 & F2 & _).
    assert (I : In (c_sid c, i) (n_bysid k)) by (apply (a_sid _ A _ _ _ _ Ek); exact Pl). split; [exact I|]. destruct (n_bev k) eqn:Bk; [reflexivity|]. destruct F2 as (_ & F2); auto; [discriminate|]. rewrite F2 in I. destruct I.
Qed.
Lemma helps_no_failure e : helps e -> no_failure e.
Proof. destruct e; cbn; tauto. Qed.
Definition goes (x : ctx) (es : list event) (y : ctx) : Prop := Forall helps es /\ honest_run x es /\ run x es = Some y.
Lemma goes_nil x : goes x [] x.
Proof. split; [constructor|]. split; [exact I|reflexivity]. Qed.
Lemma goes_cons x e es y z : helps e -> honest x e -> step x e = Some y -> goes y es z -> goes x (e :: es) z.
Proof.
  intros H1 H2 E (G1 & G2 & G3). split; [constructor; assumption|]. split; [split; [exact H2|]; intros y' E'; assert (y' = y) by congruence; subst; exact G2|]. cbn [run]. rewrite E. exact G3.
Qed.
Lemma run_app es1 : forall es2 x, run x (es1 ++ es2) = ChanModel.bind (run x es1) (fun y => run y es2).
Proof. induction es1 as [|e es IH]; intros es2 x; cbn [app run]; [reflexivity|]. destruct (step x e) as [y|]; cbn [ChanModel.bind]; [apply IH|reflexivity]. Qed.
Lemma honest_app es1 : forall es2 x, honest_run x (es1 ++ es2) <-> honest_run x es1 /\ (forall y, run x es1 = Some y -> honest_run y es2).
Proof.
  induction es1 as [|e es IH]; intros es2 x; cbn [app run honest_run].
  - split; [intros H; split; [exact I|intros y E; inversion E; subst; exact H]|intros (_ & H); apply H; reflexivity].
  - split.
    + intros (H1 & H2). split; [split; [exact H1|]; intros y Ey; apply (IH es2 y), (H2 y Ey)|]. intros z Ez. destruct (step x e) as [y|] eqn:Ey; [|discriminate]. apply (IH es2 y); auto.
    + intros ((H1 & H2) & H3). split; [exact H1|]. intros y Ey. apply (IH es2 y). split; [apply H2, Ey|]. intros z Ez. apply H3. rewrite Ey. exact Ez.
Qed.
Lemma goes_app x es y fs z : goes x es y -> goes y fs z -> goes x (es ++ fs) z.
Proof.
  intros (A1 & A2 & A3) (B1 & B2 & B3). split; [apply Forall_app; auto|]. split; [apply honest_app; split; [exact A2|]; intros u Eu; assert (u = y) by congruence; subst; exact B2|]. rewrite run_app, A3. exact B3.
Qed.
Lemma settle h y i c o : fine h y -> x_chans y i = Some c -> In o (c_refs c) -> exists z, collect y = Some z /\ fine h z /\ x_run z = x_run y /\ x_chans z i = Some c /\
  (forall n k, c_conn c = Some n -> x_conns y n = Some k -> exists k', x_conns z n = Some k' /\ same_tcp k k').
Proof.
  intros G Ec I. destruct (collect_good h y G) as (z & Ez & Gz & K). exists z. split; [exact Ez|]. split; [exact Gz|]. split; [apply (k_run _ _ K)|].
  assert (Ez' : x_chans z i = Some c). { apply (k_held _ _ K); [exact Ec|]. unfold held. destruct (c_refs c); [destruct I|]. cbn. rewrite orb_true_r. reflexivity. }
  split; [exact Ez'|]. intros n k En Ek. destruct (conn_of_some z i c n (gA _ _ _ _ _ Gz) Ez' En) as (k' & Ek' & _). exists k'. split; [exact Ek'|]. destruct (k_conns _ _ K _ _ Ek') as (k0 & E0 & T). congruence.
Qed.
(** Where a channel is, with an operation *)
Definition at_ (x : ctx) (i o n : nat) (s : cstate) (k : conn) : Prop :=
  exists c, x_chans x i = Some c /\ In o (c_refs c) /\ c_conn c = Some n /\ c_state c = s /\ x_conns x n = Some k.
Definition ok_state (x : ctx) : Prop := fine true x /\ x_run x = true.
Lemma go_tick x i o n s k : ok_state x -> at_ x i o n s k -> n_state k = Holdoff -> n_timer k = true -> n_bev k = false ->
  exists y k', goes x [ETick n true] y /\ ok_state y /\ at_ y i o n s k' /\ n_bev k' = true.
Proof.
  intros (G & Hr) (c & Ec & I & En & Es & Ek) Hs Ht Hb.
  destruct (handle_good true (ETick n true) x G Logic.I (fun _ => eq_refl)) as (y & Ey & Gy). pose proof Ey as Ey'. cbn [handle] in Ey'. unfold tick in Ey'. rewrite Ek, Ht, Hs in Ey'. inversion Ey'. clear Ey'.
  destruct (settle true y i c o Gy) as (z & Ez & Gz & Rz & Cz & Hz); [subst y; exact Ec|exact I|]. destruct (Hz n (n_with_tcp Opening true false (n_ready k) k) En) as (k' & Ek' & T); [subst y; cbn; apply upd_same|].
  exists z, k'. split; [apply (goes_cons x (ETick n true) [] z z); [reflexivity|exact Logic.I|unfold step; rewrite Ey; exact Ez|apply goes_nil]|]. split; [split; [exact Gz|rewrite Rz; subst y; exact Hr]|].
  split; [exists c; auto|]. destruct T as (_ & _ & T & _). exact T.
Qed.
Lemma go_up x i o n s k : ok_state x -> at_ x i o n s k -> n_bev k = true ->
  exists es y k', goes x es y /\ ok_state y /\ at_ y i o n s k' /\ open k' = true.
Proof.
  intros (G & Hr) (c & Ec & I & En & Es & Ek) Hb. destruct (f_fit _ _ _ _ (gF _ _ _ _ _ G) _ _ Ek) as (_ & _ & _ & _ & F5 & _). destruct (F5 Hb) as [So | So].
  - destruct (handle_good true (EUp n) x G Logic.I (fun _ => Logic.I)) as (y & Ey & Gy). pose proof Ey as Ey'. cbn [handle] in Ey'. unfold tcp_up in Ey'. rewrite Ek, So, Hb in Ey'. inversion Ey'. clear Ey'.
    destruct (settle true y i c o Gy) as (z & Ez & Gz & Rz & Cz & Hz); [subst y; exact Ec|exact I|]. destruct (Hz n (n_with_tcp Connected true true (n_ready k) k) En) as (k' & Ek' & T); [subst y; cbn; apply upd_same|].
    exists [EUp n], z, k'. split; [apply (goes_cons x (EUp n) [] z z); [exact Logic.I|exact Logic.I|unfold step; rewrite Ey; exact Ez|apply goes_nil]|]. split; [split; [exact Gz|rewrite Rz; subst y; exact Hr]|].
    split; [exists c; auto|]. destruct T as (_ & T1 & T2 & _). cbn in T1, T2. unfold open. rewrite T1, T2. reflexivity.
  - exists [], x, k. split; [apply goes_nil|]. split; [split; assumption|]. split; [exists c; auto|]. unfold open. rewrite Hb, So. reflexivity.
Qed.
Lemma go_valid x i o n k : ok_state x -> at_ x i o n Connecting k -> open k = true ->
  exists y k', goes x [EValidated n] y /\ ok_state y /\ at_ y i o n Creating k' /\ open k' = true.
Proof.
  intros (G & Hr) (c & Ec & I & En & Es & Ek) Ho. set (k1 := n_with_tcp (n_state k) (n_bev k) (n_timer k) true k). pose proof (gA _ _ _ _ _ G) as A.
  assert (G1 : good true None None (Some n) (set_conn n (Some k1) x)). { apply (good_prim true None None (Some n) x); [apply good_e3, G|]. apply P_valid; auto. }
  destruct (create_channels_good true None None n k1 (set_conn n (Some k1) x)) as (y & Ey & Gy & M); [discriminate|exact G1|cbn; apply upd_same|].
  assert (Eh : handle (EValidated n) x = Some y). { cbn [handle]. unfold validated. rewrite Ek, Ho. exact Ey. }
  pose proof (handle_keeps true (EValidated n) x y G Eh) as K. destruct (g_op _ _ _ _ _ _ K i c o Ec I (fun F => F)) as (c' & Ec' & I' & _).
  assert (Fr : fr None (set_conn n (Some k1) x) y) by (apply (made_fr n); exact M).
  destruct (r_chans _ _ _ Fr i c') as (c0 & Ec0 & En' & Es'); [discriminate|exact Ec'|]. cbn in Ec0. assert (c0 = c) by congruence. subst c0.
  destruct (r_conns _ _ _ Fr n k1) as (k2 & Ek2 & T2); [cbn; apply upd_same|].
  assert (Hd : x_run y = true) by (rewrite (r_run _ _ _ Fr); exact Hr).
  assert (Sc : c_state c' = Creating).
  { destruct (f_fit _ _ _ _ (gF _ _ _ _ _ Gy) _ _ Ek2) as (_ & _ & F3 & _).
    assert (N : c_state c' <> Connecting).
    { intros Sc. assert (J : In i (n_pending k2)). { apply (a_pend _ (gA _ _ _ _ _ Gy) _ _ _ Ek2). exists (c_sid c'). rewrite <- Sc. apply place_i; congruence. }
      rewrite F3 in J; [destruct J|discriminate|]. destruct T2 as (_ & _ & _ & _ & T & _). rewrite T. reflexivity. }
    destruct (m_chan _ _ _ M i) as [E | (d & Ed & Sd & _ & Ey')]; [cbn in E; congruence|]. rewrite Ec' in Ey'. inversion Ey'. reflexivity. }
  destruct (settle true y i c' o Gy Ec' I') as (z & Ez & Gz & Rz & Cz & Hz). destruct (Hz n k2) as (k3 & Ek3 & T3); [congruence|exact Ek2|].
  exists z, k3. split; [apply (goes_cons x (EValidated n) [] z z); [exact Logic.I|exact Logic.I|unfold step; rewrite Eh; exact Ez|apply goes_nil]|]. split; [split; [exact Gz|congruence]|].
  split; [exists c'; repeat split; congruence|]. destruct T2 as (_ & T1 & T2 & _), T3 as (_ & T4 & T5 & _). unfold open in *. rewrite T4, T5, T1, T2. exact Ho.
Qed.
Lemma fresh_sid (l : list Z) : exists d, ~ In d l.
Proof.
  assert (H : exists m, forall z, In z l -> (z < m)%Z).
  { induction l as [|a l (m & IH)]; [exists 0%Z; intros z []|]. exists (Z.max m (a + 1))%Z. intros z [<- | I]; [lia|]. specialize (IH z I). lia. }
  destruct H as (m & H). exists m. intros I. specialize (H m I). lia.
Qed.
Lemma go_created x i o n k : ok_state x -> at_ x i o n Creating k -> open k = true ->
  exists sid y k', goes x [ECreated n i sid true] y /\ ok_state y /\ at_ y i o n Active k'.
Proof.
  intros (G & Hr) (c & Ec & I & En & Es & Ek) Ho. pose proof (gA _ _ _ _ _ G) as A. destruct (fresh_sid (map fst (n_bysid k))) as (sid & Ns). exists sid.
  assert (Hh : honest x (ECreated n i sid true)) by (intros k' Ek'; assert (k' = k) by congruence; subst; exact Ns).
  destruct (handle_good true (ECreated n i sid true) x G Hh (fun _ => Logic.I)) as (y & Ey & Gy).
  destruct (g_op _ _ _ _ _ _ (handle_keeps true _ x y G Ey) i c o Ec I (fun F => F)) as (c' & Ec' & I' & _).
  assert (Hc : c_state c' = Active /\ c_conn c' = Some n /\ x_run y = true).
  { cbn [handle] in Ey. unfold created in Ey. rewrite Ek, Ho in Ey.
    assert (J : In i (n_creating k)). { apply (a_crea _ A _ _ _ Ek). exists (c_sid c). rewrite <- Es. apply place_i; assumption. } apply is_in_iff in J. rewrite J, Ec in Ey. cbn [negb] in Ey.
    destruct (create_operations _ _) as [z|] eqn:Ez; [|discriminate]. cbn [ChanModel.bind] in Ey. destruct (create_operations_watch _ _ _ Ez) as (_ & R & _ & _ & _ & _ & _ & _ & _ & _ & H11 & _).
    destruct (H11 i (c_with_state Active (c_with_sid sid c))) as (c3 & Ec3 & _ & _ & Sc & Nc); [cbn; apply upd_same|]. rewrite Ec3 in Ey. inversion Ey; subst y. cbn in Ec'. rewrite upd_same in Ec'. inversion Ec'. cbn. rewrite Sc, Nc, R. auto. }
  destruct Hc as (Sc & Nc & Ry). destruct (conn_of_some y i c' n (gA _ _ _ _ _ Gy) Ec' Nc) as (k2 & Ek2 & _).
  destruct (settle true y i c' o Gy Ec' I') as (z & Ez & Gz & Rz & Cz & Hz). destruct (Hz n k2 Nc Ek2) as (k3 & Ek3 & T3).
  exists z, k3. split; [apply (goes_cons x (ECreated n i sid true) [] z z); [reflexivity|exact Hh|unfold step; rewrite Ey; exact Ez|apply goes_nil]|]. split; [split; [exact Gz|congruence]|].
  exists c'. auto.
Qed.
Lemma go_creating x i o n k : ok_state x -> at_ x i o n Creating k -> n_bev k = true -> exists es y k', goes x es y /\ ok_state y /\ at_ y i o n Active k'.
Proof.
  intros G H Hb. destruct (go_up x i o n Creating k G H Hb) as (es & y & k1 & R1 & G1 & H1 & O1). destruct (go_created y i o n k1 G1 H1 O1) as (sid & z & k2 & R2 & G2 & H2).
  exists (es ++ [ECreated n i sid true]), z, k2. split; [apply (goes_app _ _ y _ _ R1 R2)|]. auto.
Qed.
Lemma go_connecting x i o n k : ok_state x -> at_ x i o n Connecting k -> n_bev k = true -> exists es y k', goes x es y /\ ok_state y /\ at_ y i o n Active k'.
Proof.
  intros G H Hb. destruct (go_up x i o n Connecting k G H Hb) as (es & y & k1 & R1 & G1 & H1 & O1). destruct (go_valid y i o n k1 G1 H1 O1) as (z & k2 & R2 & G2 & H2 & O2).
  assert (B2 : n_bev k2 = true) by (unfold open in O2; apply andb_true_iff in O2; apply O2). destruct (go_creating z i o n k2 G2 H2 B2) as (es3 & w & k3 & R3 & G3 & H3).
  exists ((es ++ [EValidated n]) ++ es3), w, k3. split; [apply (goes_app _ _ z); [apply (goes_app _ _ y _ _ R1 R2)|exact R3]|]. auto.
Qed.
Lemma go_on x i c o : ok_state x -> x_chans x i = Some c -> In o (c_refs c) -> c_state c <> Searching -> exists es y n k', goes x es y /\ ok_state y /\ at_ y i o n Active k'.
Proof.
  intros (G & Hr) Ec I Ns. pose proof (fine_attended x i c G Hr Ec) as At. unfold attended in At. destruct (c_state c) eqn:Es; [congruence| | |].
  - destruct At as (n & k & En & Ek & _ & _ & Hb). destruct (n_bev k) eqn:Bk.
    + destruct (go_connecting x i o n k) as (es & y & k' & R & G' & H'); [split; assumption|exists c; auto|exact Bk|]. exists es, y, n, k'. auto.
    + destruct Hb as [Hb | (Hs & Ht)]; [discriminate|]. destruct (go_tick x i o n Connecting k) as (y & k1 & R1 & G1 & H1 & B1); [split; assumption|exists c; auto|exact Hs|exact Ht|exact Bk|].
      destruct (go_connecting y i o n k1 G1 H1 B1) as (es & z & k' & R & G' & H'). exists ([ETick n true] ++ es), z, n, k'. split; [apply (goes_app _ _ y _ _ R1 R)|]. auto.
  - destruct At as (n & k & En & Ek & _ & Hb). destruct (go_creating x i o n k) as (es & y & k' & R & G' & H'); [split; assumption|exists c; auto|exact Hb|]. exists es, y, n, k'. auto.
  - destruct At as (n & k & En & Ek & _). exists [], x, n, k. split; [apply goes_nil|]. split; [split; assumption|]. exists c. auto.
Qed.
Lemma go_all x i c o a : ok_state x -> x_chans x i = Some c -> In o (c_refs c) -> exists es y n k', goes x ((match c_state c with Searching => [EFound i a true] | _ => [] end) ++ es) y /\ ok_state y /\ at_ y i o n Active k'.
Proof.
  intros (G & Hr) Ec I. destruct (c_state c) eqn:Es; try (cbn [app]; apply (go_on x i c o); [split; assumption|exact Ec|exact I|congruence]).
  destruct (attach_new true None x a false true i c G Ec Es) as (u & o' & Eb & H). destruct o' as [n|]; [|destruct H as (_ & _ & _ & _ & H); specialize (H Hr); discriminate].
  destruct H as (y & c' & Ey & Gy & Fy & Ec' & Ns). assert (Eh : handle (EFound i a true) x = Some y). { cbn [handle]. unfold found. rewrite Ec, Es, Eb. exact Ey. }
  assert (I' : In o (c_refs c')). { destruct (r_keep _ _ _ Fy i c' Ec') as (c0 & E0 & R & _). assert (c0 = c) by congruence. subst. rewrite R. exact I. }
  destruct (settle true y i c' o Gy Ec' I') as (z & Ez & Gz & Rz & Cz & _). destruct (go_on z i c' o) as (es & w & m & k' & R & G' & H'); [split; [exact Gz|rewrite Rz, (r_run _ _ _ Fy); exact Hr]|exact Cz|exact I'|exact Ns|].
  exists es, w, m, k'. split; [|auto]. cbn [app]. apply (goes_cons x (EFound i a true) es z w); [reflexivity|exact Logic.I|unfold step; rewrite Eh; exact Ez|exact R].
Qed.
(** ** What was told to an operation *)
Lemma live_none o l : fold_left (live o) l None = None.
Proof. induction l as [|e l IH]; cbn [fold_left]; [reflexivity|]. replace (live o None e) with (@None life); [exact IH|]. destruct e; cbn; try destruct (Nat.eqb o _); reflexivity. Qed.
Lemma life_starts_ex o l q : fold_left (live o) l (Some Waiting) = Some q -> q <> Waiting -> exists n, In (OStart o n) l.
Proof.
  induction l as [|e l IH]; intros H N; cbn [fold_left] in H; [congruence|]. destruct (of_op o e) eqn:Eo.
  - destruct e; cbn in Eo; try discriminate; apply Nat.eqb_eq in Eo; subst op; [exists n; left; reflexivity| | |];
      (cbn [live] in H; rewrite Nat.eqb_refl in H; rewrite live_none in H; discriminate).
  - rewrite (live_other o _ e Eo) in H. destruct (IH H N) as (n & I). exists n. right. exact I.
Qed.
(** ** Operations are kept *)
Lemma run_ops h es : forall x y i c o, fine h x -> honest_run x es -> (h = true -> Forall no_failure es) -> run x es = Some y -> x_chans x i = Some c -> In o (c_refs c) -> Forall (fun e => ~ drops e o) es ->
  exists c', x_chans y i = Some c' /\ In o (c_refs c') /\ c_name c' = c_name c /\ c_server c' = c_server c.
Proof.
  induction es as [|e es IH]; intros x y i c o G Hr Hf E Ec I Hd; cbn [run] in E; [inversion E; subst; exists c; auto|]. destruct Hr as (H1 & H2). inversion Hd as [|? ? Hd1 Hd2]; subst.
  assert (Hf1 : h = true -> no_failure e) by (intros T; specialize (Hf T); inversion Hf; assumption). assert (Hf2 : h = true -> Forall no_failure es) by (intros T; specialize (Hf T); inversion Hf; assumption).
  destruct (step_good h e x G H1 Hf1) as (z & Ez & Gz). rewrite Ez in E. cbn [ChanModel.bind] in E.
  destruct (g_op _ _ _ _ _ _ (step_keeps h e x z G H1 Hf1 Ez) i c o Ec I Hd1) as (c1 & E1 & I1 & L1 & L2 & _).
  destruct (IH z y i c1 o Gz (H2 z Ez) Hf2 E E1 I1 Hd2) as (c2 & E2 & I2 & L3 & L4). exists c2. split; [exact E2|]. split; [exact I2|]. split; congruence.
Qed.
Lemma run_handles h es : forall x y i c w, fine h x -> honest_run x es -> (h = true -> Forall no_failure es) -> run x es = Some y -> x_chans x i = Some c -> In w (map fst (c_watch c)) -> Forall (fun e => ~ releases e w) es ->
  exists c', x_chans y i = Some c' /\ In w (map fst (c_watch c')) /\ c_name c' = c_name c /\ c_server c' = c_server c.
Proof.
  induction es as [|e es IH]; intros x y i c o G Hr Hf E Ec I Hd; cbn [run] in E; [inversion E; subst; exists c; auto|]. destruct Hr as (H1 & H2). inversion Hd as [|? ? Hd1 Hd2]; subst.
  assert (Hf1 : h = true -> no_failure e) by (intros T; specialize (Hf T); inversion Hf; assumption). assert (Hf2 : h = true -> Forall no_failure es) by (intros T; specialize (Hf T); inversion Hf; assumption).
  destruct (step_good h e x G H1 Hf1) as (z & Ez & Gz). rewrite Ez in E. cbn [ChanModel.bind] in E.
  destruct (g_w _ _ _ _ _ _ (step_keeps h e x z G H1 Hf1 Ez) i c o Ec I Hd1) as (c1 & E1 & I1 & L1 & L2 & _).
  destruct (IH z y i c1 o Gz (H2 z Ez) Hf2 E E1 I1 Hd2) as (c2 & E2 & I2 & L3 & L4). exists c2. split; [exact E2|]. split; [exact I2|]. split; congruence.
Qed.
Lemma reached_fine ns es x : reached ns es x -> fine false x.
Proof. intros (H & E). destruct (run_good false es (init ns) (init_good false ns) H) as (y & Ey & G); [discriminate|]. assert (y = x) by congruence. subst. exact G. Qed.
Lemma reached_fine_true ns es x : reached ns es x -> Forall no_failure es -> fine true x.
Proof. intros (H & E) F. destruct (run_good true es (init ns) (init_good true ns) H) as (y & Ey & G); [auto|]. assert (y = x) by congruence. subst. exact G. Qed.
