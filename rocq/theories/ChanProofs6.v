(** The parts of an event: none fails, and what holds goes on to hold. *)
From Coq Require Import ZArith List Bool Arith Lia.
From Verif Require Import Base BaseProofs ChanModel ChanSpec ChanProofs ChanProofs2 ChanProofs3 ChanProofs4 ChanProofs5.
Import ListNotations.

Record good (h : bool) (e1 e2 e3 : option nat) (x : ctx) : Prop := {
  gA : coreA x; gB : coreB x; gC : coreC x; gD : coreD x; gE : coreE h e1 x; gF : coreF h e2 e3 x
}.
Lemma good_prim h e1 e2 e3 x y : good h e1 e2 e3 x -> prim h e1 e2 e3 x y -> good h e1 e2 e3 y.
Proof.
  intros [A B C D E F] P. constructor.
  - apply (coreA_prim _ _ _ _ _ _ A P).
  - apply (coreB_prim _ _ _ _ _ _ A B P).
  - apply (coreC_prim _ _ _ _ _ _ C P).
  - apply (coreD_prim _ _ _ _ _ _ A D P).
  - apply (coreE_prim _ _ _ _ _ _ E P).
  - apply (coreF_prim _ _ _ _ _ _ A F P).
Qed.
Lemma good_e1 h e1 e2 e3 x : good h None e2 e3 x -> good h e1 e2 e3 x.
Proof. intros [A B C D E F]. constructor; auto. intros Hh Hr i c Ec Es _. apply (E Hh Hr i c Ec Es). discriminate. Qed.
Lemma good_no_e1 h i e2 e3 x : good h (Some i) e2 e3 x -> (h = true -> x_run x = true -> forall c, x_chans x i = Some c -> c_state c = Searching -> In i (x_search x)) -> good h None e2 e3 x.
Proof.
  intros [A B C D E F] H. constructor; auto. intros Hh Hr j c Ec Es _. destruct (Nat.eq_dec i j) as [-> | N]; [apply (H Hh Hr c Ec Es)|].
  apply (E Hh Hr j c Ec Es). congruence.
Qed.
Lemma good_e3 h e1 e2 e3 x : good h e1 e2 None x -> good h e1 e2 e3 x.
Proof.
  intros [A B C D E [F1 F2]]. constructor; auto. constructor; [|exact F2]. intros n k Ek. destruct (F1 _ _ Ek) as (G1 & G2 & G3 & G4 & G5 & G6).
  repeat split; auto; try (apply G2; assumption). intros _. apply G3. discriminate.
Qed.
Lemma good_no_e3 h e1 e2 n x : good h e1 e2 (Some n) x -> (forall k, x_conns x n = Some k -> n_ready k = true -> n_pending k = []) -> good h e1 e2 None x.
Proof.
  intros [A B C D E [F1 F2]] H. constructor; auto. constructor; [|exact F2]. intros m k Ek. destruct (F1 _ _ Ek) as (G1 & G2 & G3 & G4 & G5 & G6).
  unfold fit. split; [exact G1|]. split; [exact G2|]. split; [|split; [exact G4|split; [exact G5|exact G6]]].
  intros _. destruct (Nat.eq_dec m n) as [-> | N]; [apply (H _ Ek)|apply G3; congruence].
Qed.
Lemma good_e2 h e1 e3 n k x : good h e1 None e3 x -> x_conns x n = Some k -> (forall a, x_addr x a <> Some n) -> good h e1 (Some n) e3 x.
Proof.
  intros [A B C D E [F1 F2]] Ek U. constructor; auto. constructor.
  - intros m q Eq. destruct (F1 _ _ Eq) as (G1 & G2 & G3 & G4 & G5 & G6).
    assert (N : (None : option nat) <> Some m) by discriminate. unfold fit. split; [auto|]. split; [auto|]. split; [exact G3|]. split; [auto|]. auto.
  - intros m Em. inversion Em; subst. split; [apply (a_conn _ A _ _ Ek)|exact U].
Qed.
Lemma good_no_e2 h e1 e3 n x : good h e1 (Some n) e3 x ->
  (forall k, x_conns x n = Some k -> n_bev k = false /\ n_ready k = false /\ n_pending k = [] /\ n_creating k = [] /\ n_bysid k = []) -> good h e1 None e3 x.
Proof.
  intros [A B C D E [F1 F2]] H. constructor; auto. constructor; [|discriminate]. intros m k Ek. destruct (F1 _ _ Ek) as (G1 & G2 & G3 & G4 & G5 & G6).
  destruct (Nat.eq_dec m n) as [-> | N].
  - destruct (H _ Ek) as (H1 & H2 & H3 & H4 & H5). unfold fit. split; [congruence|]. split; [auto|]. split; [auto|]. split; [auto|]. split; [exact G5|exact G6].
  - assert (Nn : Some n <> Some m) by congruence. unfold fit. split; [auto|]. split; [auto|]. split; [exact G3|]. split; [auto|]. auto.
Qed.
Lemma good_weaken h x e1 e3 e2 : good h None e2 None x -> good h e1 e2 e3 x.
Proof. intros G. apply good_e1, good_e3, G. Qed.

(** ** What stays *)
Record fr (i : option nat) (x x' : ctx) : Prop := {
  r_run : x_run x' = x_run x;
  r_names : x_names x' = x_names x;
  r_ns : x_ns x' = x_ns x;
  r_nc : x_nc x' = x_nc x;
  r_conns : forall m k, x_conns x m = Some k -> exists k', x_conns x' m = Some k' /\ same_tcp k k';
  r_none : forall j, x_chans x' j = None <-> x_chans x j = None;
  r_chans : forall j c', i <> Some j -> x_chans x' j = Some c' -> exists c, x_chans x j = Some c /\ c_conn c' = c_conn c /\ (c_state c' = Searching <-> c_state c = Searching);
  r_keep : forall j c', x_chans x' j = Some c' -> exists c, x_chans x j = Some c /\ c_refs c' = c_refs c /\ map fst (c_watch c') = map fst (c_watch c) /\ c_server c' = c_server c /\ c_name c' = c_name c
}.
Lemma fr_refl i x : fr i x x.
Proof.
  constructor; try reflexivity.
  - intros m k E. exists k. split; [exact E|apply same_tcp_refl].
  - intros j c _ E. exists c. tauto.
  - intros j c E. exists c. auto.
Qed.
Lemma fr_trans i x y z : fr i x y -> fr i y z -> fr i x z.
Proof.
  intros [A1 A2 A3 A4 A5 A6 A7 A8] [B1 B2 B3 B4 B5 B6 B7 B8]. constructor; try congruence.
  - intros m k E. destruct (A5 _ _ E) as (k1 & E1 & T1), (B5 _ _ E1) as (k2 & E2 & T2). exists k2. split; [exact E2|apply (same_tcp_trans _ _ _ T1 T2)].
  - intros j. rewrite B6. apply A6.
  - intros j c N E. destruct (B7 _ _ N E) as (c1 & E1 & F1 & G1), (A7 _ _ N E1) as (c2 & E2 & F2 & G2). exists c2. split; [exact E2|split; [congruence|tauto]].
  - intros j c E. destruct (B8 _ _ E) as (c1 & E1 & F1 & F2 & F3 & F4), (A8 _ _ E1) as (c2 & E2 & G1 & G2 & G3 & G4). exists c2. split; [exact E2|]. repeat split; congruence.
Qed.
Lemma fr_weak i x x' : fr None x x' -> fr i x x'.
Proof. intros [A1 A2 A3 A4 A5 A6 A7 A8]. constructor; auto. intros j c' _ E. apply (A7 j c'); [discriminate|exact E]. Qed.

(** ** Connections *)
Lemma ready_bev h e1 e2 e3 x n k : good h e1 e2 e3 x -> x_conns x n = Some k -> e2 <> Some n -> n_ready k = true -> n_bev k = true.
Proof. intros G Ek N Hr. destruct (f_fit _ _ _ _ (gF _ _ _ _ _ G) _ _ Ek) as (F1 & _). auto. Qed.
Lemma n_eta p c s k : p = n_pending k -> c = n_creating k -> s = n_bysid k -> n_with_lists p c s k = k.
Proof. intros -> -> ->. destruct k; reflexivity. Qed.
Lemma without_id i l : ~ In i l -> without i l = l.
Proof.
  induction l as [|a l IH]; intros H; [reflexivity|]. unfold without. cbn. fold (without i l). destruct (Nat.eqb_spec i a) as [-> | N]; [exfalso; apply H; left; reflexivity|]. cbn. f_equal.
  apply IH. intros I. apply H. right. exact I.
Qed.
Lemma creates_total h e1 e2 n l : e2 <> Some n -> forall x, good h e1 e2 (Some n) x -> (exists k, x_conns x n = Some k /\ n_ready k = true) ->
  (forall i, In i l -> exists c, x_chans x i = Some c /\ c_conn c = Some n /\ (c_state c = Connecting \/ c_state c = Creating)) ->
  exists x', each (create_one n) l x = Some x' /\ good h e1 e2 (Some n) x'.
Proof.
  intros Ne. induction l as [|i l IH]; intros x G Hk Hl; cbn [each]; [eauto|].
  destruct Hk as (k & Ek & Rk). destruct (Hl i (or_introl eq_refl)) as (c & Ec & En & Hs). pose proof (ready_bev h e1 e2 (Some n) x n k G Ek Ne Rk) as Bk.
  assert (S : exists y, create_one n i x = Some y /\ prim h e1 e2 (Some n) x y /\ (exists k', x_conns y n = Some k' /\ n_ready k' = true) /\
     (forall j c, x_chans x j = Some c -> c_conn c = Some n /\ (c_state c = Connecting \/ c_state c = Creating) -> exists c', x_chans y j = Some c' /\ c_conn c' = Some n /\ (c_state c' = Connecting \/ c_state c' = Creating))).
  { unfold create_one. rewrite Ek, Ec. destruct Hs as [Hs | Hs]; rewrite Hs.
    - rewrite Bk. eexists. split; [reflexivity|]. split; [apply (P_create h e1 e2 (Some n) x i n c k); assumption|]. split.
      + cbn. rewrite upd_same. eexists. split; [reflexivity|]. exact Rk.
      + intros j d Ed Hd. cbn. unfold upd. destruct (Nat.eqb_spec j i) as [-> | N]; [|eauto]. eexists. split; [reflexivity|]. cbn. auto.
    - rewrite (n_eta _ _ _ k); [|apply without_id|reflexivity|reflexivity].
      + eexists. split; [reflexivity|]. split; [apply P_nop, Ek|]. split; [cbn; rewrite upd_same; eauto|]. cbn. eauto.
      + intros I. apply (a_pend _ (gA _ _ _ _ _ G) _ _ _ Ek) in I. destruct I as (d & I). rewrite (place_i x i c n Ec En) in I. congruence. }
  destruct S as (y & Ey & P & Hk' & Hc). unfold bind. rewrite Ey. apply IH; [apply (good_prim _ _ _ _ _ _ G P)|exact Hk'|].
  intros j I. destruct (Hl j (or_intror I)) as (d & Ed & Hd). apply (Hc j d Ed Hd).
Qed.
Lemma create_channels_good h e1 e2 n k x : e2 <> Some n -> good h e1 e2 (Some n) x -> x_conns x n = Some k ->
  exists x', create_channels n x = Some x' /\ good h e1 e2 None x' /\ made n x x'.
Proof.
  intros Ne G Ek. pose proof (gA _ _ _ _ _ G) as A.
  assert (T : exists x', create_channels n x = Some x' /\ good h e1 e2 (Some n) x').
  { unfold create_channels. rewrite Ek. destruct (n_ready k) eqn:Rk; [|eauto]. apply (creates_total h e1 e2 n (n_pending k) Ne x G); [eauto|].
    intros i I. apply (a_pend _ A _ _ _ Ek) in I. destruct I as (d & I). unfold place in I. destruct (x_chans x i) as [c|]; [|discriminate]. exists c. split; [reflexivity|].
    destruct (c_conn c); [|discriminate]. inversion I; subst. auto. }
  destruct T as (x' & Ex & G'). exists x'. split; [exact Ex|]. destruct (made_channels n x x' A Ex) as (M & H). split; [|exact M].
  apply (good_no_e3 h e1 e2 n x' G'). intros k' Ek' Rk'. destruct (m_conn _ _ _ M _ Ek) as (k2 & Ek2 & T & _). rewrite Ek' in Ek2. inversion Ek2; subst k2.
  assert (Rk : n_ready k = true) by (destruct T as (_ & _ & _ & _ & T & _); congruence).
  destruct (n_pending k') as [|i l] eqn:El; [reflexivity|]. assert (I : In i (n_pending k')) by (rewrite El; left; reflexivity).
  apply (a_pend _ (gA _ _ _ _ _ G') _ _ _ Ek') in I. destruct I as (d & I). unfold place in I. destruct (x_chans x' i) as [c|] eqn:Ec; [|discriminate]. destruct (c_conn c) as [m|] eqn:Em; [|discriminate].
  inversion I; subst. exfalso. apply (H k Ek Rk i c Ec); auto.
Qed.
Lemma made_fr n x x' : made n x x' -> fr None x x'.
Proof.
  intros [C Hc (X1 & X2 & X3 & X4 & X5 & X6 & X7 & X8 & X9) Ho Hk Hl]. constructor; try assumption.
  - intros m k Ek. destruct (Nat.eq_dec m n) as [-> | N].
    + destruct (Hk _ Ek) as (k' & Ek' & T & _). eauto.
    + exists k. split; [rewrite (Ho _ N); exact Ek|apply same_tcp_refl].
  - intros j. destruct (Hc j) as [-> | (c & -> & _ & _ & ->)]; [tauto|split; discriminate].
  - intros j c' _ E. destruct (Hc j) as [H | (c & Ec & Es & En & H)].
    + rewrite H in E. exists c'. tauto.
    + rewrite H in E. inversion E; subst. exists c. split; [exact Ec|]. split; [reflexivity|]. cbn. rewrite Es. split; discriminate.
  - intros j c' E. destruct (Hc j) as [H | (c & Ec & Es & En & H)].
    + rewrite H in E. exists c'. tauto.
    + rewrite H in E. inversion E; subst. exists c. cbn. tauto.
Qed.
Lemma attach_good h e1 e2 i n c k x : good h e1 e2 None x -> x_chans x i = Some c -> c_state c = Searching -> x_conns x n = Some k -> x_addr x (n_addr k) = Some n ->
  exists x' c', attach i n x = Some x' /\ good h e1 e2 None x' /\ fr (Some i) x x' /\ x_chans x' i = Some c' /\ c_conn c' = Some n /\ c_state c' <> Searching.
Proof.
  intros G Ec Es Ek Ea.
  assert (Ne : e2 <> Some n) by (intros E; apply (proj2 (f_un _ _ _ _ (gF _ _ _ _ _ G) _ E) (n_addr k) Ea)).
  unfold attach. rewrite Ec, Ek. fold (attach1 i n c k x).
  assert (G1 : good h e1 e2 (Some n) (attach1 i n c k x)). { apply (good_prim h e1 e2 (Some n) x); [apply good_e3, G|]. apply P_attach; auto. }
  destruct (create_channels_good h e1 e2 n (n_with_lists (with_ i (n_pending k)) (n_creating k) (n_bysid k) k) (attach1 i n c k x) Ne G1) as (x' & Ex & G' & M); [cbn; apply upd_same|].
  assert (F0 : fr (Some i) x (attach1 i n c k x)).
  { constructor; try reflexivity; cbn.
    - intros m q Eq. unfold upd. destruct (Nat.eqb_spec m n) as [-> | N]; [|exists q; split; [exact Eq|apply same_tcp_refl]]. eexists. split; [reflexivity|]. rewrite Ek in Eq. inversion Eq; subst. repeat split.
    - intros j. unfold upd. destruct (Nat.eqb_spec j i) as [-> | N]; [|tauto]. rewrite Ec. split; discriminate.
    - intros j d N. rewrite upd_other by congruence. intros E. exists d. tauto.
    - intros j d E. apply upd_conn_cases in E. destruct E as [(-> & ->) | (N & E)]; [exists c; cbn; tauto|exists d; tauto]. }
  pose proof (made_fr _ _ _ M) as F1.
  assert (Ei : exists c', x_chans x' i = Some c'). { destruct (x_chans x' i) eqn:E; [eauto|]. apply (r_none _ _ _ F1) in E. cbn in E. rewrite upd_same in E. discriminate. }
  destruct Ei as (c' & Ei). exists x', c'. split; [exact Ex|]. split; [exact G'|]. split; [apply (fr_trans _ _ _ _ F0 (fr_weak _ _ _ F1))|]. split; [exact Ei|].
  destruct (r_chans _ _ _ F1 i c') as (c1 & E1 & H1 & H2); [discriminate|exact Ei|]. cbn in E1. rewrite upd_same in E1. inversion E1; subst c1. split; [exact H1|].
  rewrite H2. cbn. discriminate.
Qed.
Lemma build_conn_good h e1 e2 e3 a r ok x : good h e1 e2 e3 x -> exists x' o, build_conn a r ok x = (x', o) /\ good h e1 e2 e3 x' /\ fr None x x' /\ x_chans x' = x_chans x /\ x_search x' = x_search x /\
  (forall n, o = Some n -> exists k, x_conns x' n = Some k /\ n_addr k = a /\ x_addr x' a = Some n) /\ (o = None -> x_run x = true -> r || ok = false) /\ (x_run x = false -> o = None) /\
  (forall m k, x_conns x m = Some k -> x_conns x' m = Some k).
Proof.
  intros G. unfold build_conn. destruct (x_run x) eqn:Hr; cbn [negb].
  2: { exists x, None. split; [reflexivity|]. split; [exact G|]. split; [apply fr_refl|]. repeat split; try discriminate; auto. }
  destruct (x_addr x a) as [n|] eqn:Ea.
  { exists x, (Some n). split; [reflexivity|]. split; [exact G|]. split; [apply fr_refl|]. split; [reflexivity|]. split; [reflexivity|]. split; [|repeat split; try discriminate; auto].
    intros m Em. inversion Em; subst. destruct (a_addr _ (gA _ _ _ _ _ G) _ _ Ea) as (k & Ek & E2). eauto. }
  destruct (r || ok) eqn:Ro.
  2: { exists x, None. split; [reflexivity|]. split; [exact G|]. split; [apply fr_refl|]. repeat split; try discriminate; auto. }
  assert (B : build_conn a r ok x = (set_addr a (Some (x_nn x)) (set_conn (x_nn x) (Some (new_conn a r)) (set_next (x_nc x) (S (x_nn x)) (x_no x) (x_nw x) (emit (if r then [] else [OOpen (x_nn x) a]) x))), Some (x_nn x))).
  { unfold build_conn. rewrite Hr. cbn [negb]. rewrite Ea, Ro. reflexivity. }
  assert (Fresh : forall m k, x_conns x m = Some k -> m <> x_nn x) by (intros m k Ek ->; apply (a_conn _ (gA _ _ _ _ _ G)) in Ek; lia).
  eexists. eexists. split; [reflexivity|]. split; [apply (good_prim h e1 e2 e3 x); [exact G|]; apply (P_open h e1 e2 e3 x a r ok _ (x_nn x) Hr Ea B)|].
  split; [|split; [reflexivity|split; [reflexivity|split; [|split; [discriminate|split; [discriminate|]]]]]].
  - constructor; try reflexivity; cbn -[new_conn].
    + intros m k Ek. rewrite upd_other by (apply (Fresh _ _ Ek)). exists k. split; [exact Ek|apply same_tcp_refl].
    + intros j c _ E. exists c. tauto.
    + intros j c E. exists c. tauto.
  - intros n En. inversion En; subst. cbn -[new_conn]. rewrite upd_same, Z.eqb_refl. eexists. split; [reflexivity|]. split; reflexivity.
  - intros m k Ek. cbn -[new_conn]. rewrite upd_other by (apply (Fresh _ _ Ek)). exact Ek.
Qed.
(** ** Channel::disconnect() *)
Lemma disc_fr again i c x : coreA x -> x_chans x i = Some c -> fr (Some i) x (disc again i c (conn_of x c) x).
Proof.
  intros A Ec. unfold disc. constructor.
  - destruct (conn_of x c) as [(n, k)|]; reflexivity.
  - destruct (conn_of x c) as [(n, k)|]; reflexivity.
  - destruct (conn_of x c) as [(n, k)|]; reflexivity.
  - destruct (conn_of x c) as [(n, k)|]; reflexivity.
  - intros m q Eq. unfold conn_of. destruct (c_conn c) as [n|]; [|exists q; split; [exact Eq|apply same_tcp_refl]].
    destruct (x_conns x n) as [k|] eqn:Ek; [|exists q; split; [exact Eq|apply same_tcp_refl]]. cbn [option_map emit set_chan x_conns set_conn]. unfold upd.
    destruct (Nat.eqb_spec m n) as [-> | N]; [|exists q; split; [exact Eq|apply same_tcp_refl]]. eexists. split; [reflexivity|]. rewrite Ek in Eq. inversion Eq; subst.
    unfold left_, leave. destruct (c_state c); repeat split.
  - intros j. cbn. replace (x_chans match conn_of x c with Some (n, k) => set_conn n (Some (left_ i c k)) x | None => x end) with (x_chans x) by (destruct (conn_of x c) as [(n, k)|]; reflexivity).
    unfold upd. destruct (Nat.eqb_spec j i) as [-> | N]; [|tauto]. rewrite Ec. split; discriminate.
  - intros j d N. cbn. replace (x_chans match conn_of x c with Some (n, k) => set_conn n (Some (left_ i c k)) x | None => x end) with (x_chans x) by (destruct (conn_of x c) as [(n, k)|]; reflexivity).
    rewrite upd_other by congruence. intros E. exists d. tauto.
  - intros j d. cbn. replace (x_chans match conn_of x c with Some (n, k) => set_conn n (Some (left_ i c k)) x | None => x end) with (x_chans x) by (destruct (conn_of x c) as [(n, k)|]; reflexivity).
    intros E. apply upd_conn_cases in E. destruct E as [(-> & ->) | (N & E)]; [|exists d; tauto]. exists c. cbn. rewrite map_map. tauto.
Qed.
Lemma disc_chan again i c k x : x_chans (disc again i c k x) i = Some (gone again c).
Proof. unfold disc. cbn. apply upd_same. Qed.
Lemma disconnect_eq self again i c x : coreA x -> x_chans x i = Some c -> disconnect self again i x =
  if negb self then Some (disc again i c (conn_of x c) x)
  else match c_server c with
       | None => Some (set_search (x_search x ++ [i]) (disc again i c (conn_of x c) x))
       | Some a => match build_conn a true true (disc again i c (conn_of x c) x) with
                   | (x3, Some n) => attach i n x3
                   | (x3, None) => Some x3
                   end
       end.
Proof.
  intros A Ec. unfold disconnect. rewrite Ec. fold (conn_of x c). fold (downs c). fold (alive c). fold (losts again c).
  assert (Hs : x_search (disc again i c (conn_of x c) x) = x_search x) by (unfold disc; destruct (conn_of x c) as [(n, k)|]; reflexivity).
  destruct (conn_of x c) as [(n, k)|] eqn:Ek.
  - rewrite <- Hs. unfold disc, sends, left_, gone. destruct (c_state c); reflexivity.
  - destruct (c_state c) eqn:Es.
    2,3,4: exfalso; assert (Ns : c_state c <> Searching) by congruence; pose proof (a_has _ A _ _ Ec Ns) as Hc; destruct (c_conn c) as [n|] eqn:En; [|congruence];
      destruct (conn_of_some x i c n A Ec En) as (k & _ & E2); congruence.
    rewrite <- Hs. unfold disc, sends, gone. reflexivity.
Qed.
Lemma disc_good h again e2 i c x : good h None e2 None x -> x_chans x i = Some c -> good h (Some i) e2 None (disc again i c (conn_of x c) x).
Proof.
  intros G Ec. apply (good_prim h (Some i) e2 None x); [apply good_e1, G|]. apply P_disc; [exact Ec| |reflexivity].
  intros Ns. pose proof (a_has _ (gA _ _ _ _ _ G) _ _ Ec Ns) as Hc. destruct (c_conn c) as [n|] eqn:En; [|congruence].
  destruct (conn_of_some x i c n (gA _ _ _ _ _ G) Ec En) as (k & _ & ->). discriminate.
Qed.
Lemma disconnect_good h again e2 i c x : good h None e2 None x -> x_chans x i = Some c ->
  exists x' c', disconnect true again i x = Some x' /\ good h None e2 None x' /\ fr (Some i) x x' /\ x_chans x' i = Some c' /\ (forall n, e2 = Some n -> c_conn c' <> Some n).
Proof.
  intros G Ec. rewrite (disconnect_eq true again i c x (gA _ _ _ _ _ G) Ec). cbn [negb].
  pose proof (disc_good h again e2 i c x G Ec) as G1. pose proof (disc_fr again i c x (gA _ _ _ _ _ G) Ec) as F1. pose proof (disc_chan again i c (conn_of x c) x) as E1.
  set (y := disc again i c (conn_of x c) x) in *.
  assert (Hs : x_search y = x_search x) by (unfold y, disc; destruct (conn_of x c) as [(n, k)|]; reflexivity).
  destruct (c_server c) as [a|].
  - destruct (build_conn_good h (Some i) e2 None a true true y G1) as (z & o & Eb & G2 & F2 & Hc & Hs2 & Hn & Hno & _). rewrite Eb. destruct o as [n|].
    + destruct (Hn n eq_refl) as (k & Ek & Ea & Er). subst a.
      destruct (attach_good h (Some i) e2 i n (gone again c) k z G2) as (x' & c' & Ex & G3 & F3 & Ec' & En' & Es'); auto; [rewrite Hc; exact E1|].
      exists x', c'. split; [exact Ex|]. split; [apply (good_no_e1 h i e2 None x' G3); intros _ _ d Ed Sd; congruence|].
      split; [apply (fr_trans _ _ _ _ F1), (fr_trans _ _ _ _ (fr_weak _ _ _ F2)), F3|]. split; [exact Ec'|]. intros m Em. rewrite En'. intros Q. inversion Q; subst.
      apply (proj2 (f_un _ _ _ _ (gF _ _ _ _ _ G2) _ eq_refl) _ Er).
    + exists z, (gone again c). split; [reflexivity|]. split.
      * apply (good_no_e1 h i e2 None z G2). intros _ Hr d Ed Sd. rewrite (r_run _ _ _ F2) in Hr. specialize (Hno eq_refl Hr). discriminate.
      * split; [apply (fr_trans _ _ _ _ F1 (fr_weak _ _ _ F2))|]. rewrite Hc. split; [exact E1|]. cbn. discriminate.
  - eexists. exists (gone again c). split; [reflexivity|]. rewrite <- Hs. split.
    + apply (good_no_e1 h i e2 None); [apply (good_prim h (Some i) e2 None y); [exact G1|apply P_search]|]. intros _ _ d Ed Sd. cbn. apply in_app_iff. right. left. reflexivity.
    + split; [|split; [exact E1|cbn; discriminate]]. apply (fr_trans _ _ _ _ F1). destruct F1. constructor; try reflexivity.
      * intros m q Eq. exists q. split; [exact Eq|apply same_tcp_refl].
      * intros j d _ E. exists d. tauto.
      * intros j d E. exists d. tauto.
Qed.
(** ** Connection::cleanup() *)
Lemma drain_good h again n l : forall x, good h None (Some n) None x -> (forall i, In i l -> x_chans x i <> None) ->
  (forall i c, x_chans x i = Some c -> c_conn c = Some n -> c_state c <> Searching -> In i l) ->
  exists x', each (fun i x => disconnect true again i x) l x = Some x' /\ good h None (Some n) None x' /\
    (forall i c, x_chans x' i = Some c -> c_conn c = Some n -> c_state c = Searching) /\
    x_run x' = x_run x /\ x_names x' = x_names x /\ x_ns x' = x_ns x /\ (forall m k, x_conns x m = Some k -> exists k', x_conns x' m = Some k' /\ same_tcp k k') /\
    (forall j, x_chans x' j = None <-> x_chans x j = None).
Proof.
  induction l as [|i l IH]; intros x G Hl Hc; cbn [each].
  - exists x. split; [reflexivity|]. split; [exact G|]. split; [|repeat split; auto].
    + intros i c Ec En. destruct (c_state c) eqn:Es; auto; exfalso; apply (Hc i c Ec En); congruence.
    + intros m k Ek. exists k. split; [exact Ek|apply same_tcp_refl].
  - pose proof (Hl i (or_introl eq_refl)) as Hi. destruct (x_chans x i) as [c|] eqn:Ec; [clear Hi|congruence].
    destruct (disconnect_good h again (Some n) i c x G Ec) as (y & c' & Ey & Gy & Fy & Ec' & Hn). unfold bind. rewrite Ey.
    destruct (IH y Gy) as (x' & Ex & G' & H1 & H2 & H3 & H4 & H5 & H6).
    + intros j I E. apply (r_none _ _ _ Fy) in E. apply (Hl j (or_intror I) E).
    + intros j d Ed Dn Ds. destruct (Nat.eq_dec j i) as [-> | N].
      * rewrite Ec' in Ed. inversion Ed; subst. exfalso. apply (Hn n eq_refl Dn).
      * destruct (r_chans _ _ _ Fy j d) as (d0 & Ed0 & E1 & E2); [congruence|exact Ed|]. destruct (Hc j d0 Ed0) as [E | I]; [congruence|tauto|congruence|exact I].
    + exists x'. split; [exact Ex|]. split; [exact G'|]. split; [exact H1|]. rewrite H2, H3, H4, (r_run _ _ _ Fy), (r_names _ _ _ Fy), (r_ns _ _ _ Fy).
      repeat (split; [reflexivity|]). split.
      * intros m k Ek. destruct (r_conns _ _ _ Fy _ _ Ek) as (k1 & E1 & T1), (H5 _ _ E1) as (k2 & E2 & T2). exists k2. split; [exact E2|apply (same_tcp_trans _ _ _ T1 T2)].
      * intros j. rewrite H6. apply (r_none _ _ _ Fy).
Qed.
Record swept (n : nat) (x x' : ctx) : Prop := {
  s_run : x_run x' = x_run x; s_names : x_names x' = x_names x; s_ns : x_ns x' = x_ns x;
  s_conns : forall m k, x_conns x m = Some k -> exists k', x_conns x' m = Some k' /\ n_addr k' = n_addr k /\ (m <> n -> same_tcp k k');
  s_none : forall j, x_chans x' j = None <-> x_chans x j = None;
  s_gone : forall i c, x_chans x' i = Some c -> c_conn c = Some n -> c_state c = Searching;
  s_end : forall k', x_conns x' n = Some k' -> n_bev k' = false /\ n_ready k' = false /\ n_pending k' = [] /\ n_creating k' = [] /\ n_bysid k' = [] /\ n_ops k' = []
}.
(** from where the connection is ended and unregistered *)
Lemma cleanup_tail h again n k todo x : good h None (Some n) None x -> x_conns x n = Some k -> n_bev k = false -> n_ready k = false ->
  (forall i, In i todo <-> x_chans x i <> None /\ In i (listed k)) ->
  exists x', bind (each (fun i x => disconnect true again i x) todo x) (fun x2 =>
        match x_conns x2 n with
        | None => None
        | Some k2 => match n_ops k2 with
                     | [] => Some (set_conn n (Some (n_with_lists [] (n_creating k2) [] k2)) x2)
                     | _ => None
                     end
        end) = Some x' /\ good h None None None x' /\ swept n x x' /\ (forall k', x_conns x' n = Some k' -> n_state k' = n_state k).
Proof.
  intros G Ek Bk Rk Ht.
  destruct (drain_good h again n todo x G) as (y & Ey & Gy & H1 & H2 & H3 & H4 & H5 & H6).
  - intros i I. apply Ht in I. tauto.
  - intros i c Ec En Ns. apply Ht. split; [congruence|]. unfold listed. apply nodup_In. rewrite !in_app_iff.
    pose proof (gA _ _ _ _ _ G) as A. pose proof (place_i x i c n Ec En) as Pl. destruct (c_state c) eqn:Es; [congruence| | |].
    + left. apply (a_pend _ A _ _ _ Ek). eauto.
    + right. right. apply (a_crea _ A _ _ _ Ek). eauto.
    + right. left. apply in_map_iff. exists (c_sid c, i). split; [reflexivity|]. apply (a_sid _ A _ _ _ _ Ek). exact Pl.
  - unfold bind. rewrite Ey. destruct (H5 _ _ Ek) as (k2 & Ek2 & T). rewrite Ek2. pose proof (gA _ _ _ _ _ Gy) as A.
    assert (Np : forall i s d, place y i = Some (n, s, d) -> s = Searching).
    { intros i s d Hp. unfold place in Hp. destruct (x_chans y i) as [c|] eqn:Ec; [|discriminate]. destruct (c_conn c) as [m|] eqn:Em; [|discriminate]. inversion Hp; subst. apply (H1 i c Ec Em). }
    assert (L1 : n_pending k2 = []). { destruct (n_pending k2) as [|i l] eqn:El; [reflexivity|]. assert (I : In i (n_pending k2)) by (rewrite El; left; reflexivity). apply (a_pend _ A _ _ _ Ek2) in I. destruct I as (d & I). apply Np in I. discriminate. }
    assert (L2 : n_creating k2 = []). { destruct (n_creating k2) as [|i l] eqn:El; [reflexivity|]. assert (I : In i (n_creating k2)) by (rewrite El; left; reflexivity). apply (a_crea _ A _ _ _ Ek2) in I. destruct I as (d & I). apply Np in I. discriminate. }
    assert (L3 : n_bysid k2 = []). { destruct (n_bysid k2) as [|(d, i) l] eqn:El; [reflexivity|]. assert (I : In (d, i) (n_bysid k2)) by (rewrite El; left; reflexivity). apply (a_sid _ A _ _ _ _ Ek2) in I. apply Np in I. discriminate. }
    assert (L4 : n_ops k2 = []). { destruct (n_ops k2) as [|o l] eqn:El; [reflexivity|]. assert (I : In o (n_ops k2)) by (rewrite El; left; reflexivity). apply (b_ops _ _ (gB _ _ _ _ _ Gy) _ _ _ Ek2) in I.
      destruct I as (i & c & Ec & En & I). exfalso. assert (Sc : c_state c = Active). { apply (b_act _ _ (gB _ _ _ _ _ Gy) _ _ Ec). intros Z. rewrite Z in I. destruct I. }
      rewrite (H1 i c Ec En) in Sc. discriminate. }
    rewrite L4. eexists. split; [reflexivity|]. rewrite (n_eta _ _ _ k2); auto.
    destruct T as (T1 & T2 & T3 & T4 & T5 & T6).
    assert (Gz : good h None (Some n) None (set_conn n (Some k2) y)) by (apply (good_prim h None (Some n) None y); [exact Gy|apply P_nop, Ek2]).
    assert (En2 : forall k', x_conns (set_conn n (Some k2) y) n = Some k' -> k' = k2) by (intros k' E; cbn in E; rewrite upd_same in E; congruence).
    split; [|split].
    + apply (good_no_e2 h None None n _ Gz). intros k' E. apply En2 in E. subst k'. rewrite T3, T5. auto.
    + constructor; cbn; auto.
      * intros m q Eq. unfold upd. destruct (Nat.eqb_spec m n) as [-> | N]; [|destruct (H5 _ _ Eq) as (q' & E1 & E2); exists q'; split; [exact E1|]; split; [apply E2|auto]].
        exists k2. split; [reflexivity|]. rewrite Ek in Eq. inversion Eq; subst. split; [exact T1|congruence].
      * intros k' E. rewrite upd_same in E. inversion E; subst. rewrite T3, T5. auto 10.
    + intros k' E. apply En2 in E. congruence.
Qed.
Lemma todo_in x k i : In i (filter (fun i => match x_chans x i with Some _ => true | None => false end) (listed k)) <-> x_chans x i <> None /\ In i (listed k).
Proof. rewrite filter_In. destruct (x_chans x i); intuition congruence. Qed.
Lemma swept_from n x y z : swept n y z -> x_run y = x_run x -> x_names y = x_names x -> x_ns y = x_ns x -> x_chans y = x_chans x ->
  (forall m k, x_conns x m = Some k -> exists k', x_conns y m = Some k' /\ n_addr k' = n_addr k /\ (m <> n -> same_tcp k k')) -> swept n x z.
Proof.
  intros [S1 S2 S3 S4 S5 S6 S7] E1 E2 E3 E4 H. constructor; try congruence; auto.
  - intros m k Ek. destruct (H _ _ Ek) as (k1 & Ek1 & A1 & T1), (S4 _ _ Ek1) as (k2 & Ek2 & A2 & T2). exists k2. split; [exact Ek2|]. split; [congruence|]. intros N. apply (same_tcp_trans _ k1); auto.
  - intros j. rewrite S5, E4. tauto.
Qed.
Lemma unreg_good h x n k : good h None None None x -> x_conns x n = Some k -> good h None (Some n) None (set_addr (n_addr k) None x).
Proof.
  intros G Ek. apply (good_e2 h None None n k); [apply (good_prim h None None None x); [exact G|apply P_unreg]|exact Ek|].
  intros a Ha. cbn in Ha. destruct (Z.eqb_spec a (n_addr k)) as [E0 | N]; [discriminate|]. destruct (a_addr _ (gA _ _ _ _ _ G) _ _ Ha) as (k' & Ek' & E). congruence.
Qed.
Lemma cleanup_good h again n k x : good h None None None x -> x_conns x n = Some k ->
  exists x', cleanup again n x = Some x' /\ good h None None None x' /\ swept n x x' /\ (forall k', x_conns x' n = Some k' -> n_state k' = n_state k).
Proof.
  intros G Ek. unfold cleanup. rewrite Ek.
  pose proof (unreg_good h x n k G Ek) as G1. set (k1 := n_with_tcp (n_state k) false false false k).
  assert (G2 : good h None (Some n) None (set_conn n (Some k1) (set_addr (n_addr k) None x))).
  { apply (good_prim h None (Some n) None (set_addr (n_addr k) None x)); [exact G1|]. unfold k1. apply P_lost; auto; discriminate. }
  destruct (cleanup_tail h again n k1 (filter (fun i => match x_chans x i with Some _ => true | None => false end) (listed k)) _ G2) as (x' & Ex & G' & S & St).
  - cbn. apply upd_same.
  - reflexivity.
  - reflexivity.
  - intros i. apply (todo_in x k i).
  - exists x'. split; [exact Ex|]. split; [exact G'|]. split; [|exact St].
    apply (swept_from n x _ x' S); try reflexivity. intros m q Eq. cbn. unfold upd. destruct (Nat.eqb_spec m n) as [-> | N]; [|exists q; split; [exact Eq|]; split; [reflexivity|intros _; apply same_tcp_refl]].
    exists k1. split; [reflexivity|]. rewrite Ek in Eq. inversion Eq; subst. split; [reflexivity|congruence].
Qed.
Lemma lost_good h again v n x : good h None None None x -> exists x', lost again v n x = Some x' /\ good h None None None x' /\
  (forall k, x_conns x n = Some k -> n_bev k = true -> swept n x x' /\ (forall k', x_conns x' n = Some k' -> n_state k' = if v then n_state k else Disconnected)).
Proof.
  intros G. unfold lost. destruct (x_conns x n) as [k|] eqn:Ek; [|exists x; split; [reflexivity|split; [exact G|discriminate]]].
  destruct (n_bev k) eqn:Bk; [|exists x; split; [reflexivity|split; [exact G|intros k' E; congruence]]].
  set (k0 := n_with_tcp (if v then n_state k else Disconnected) false (n_timer k) (n_ready k) k).
  unfold cleanup. cbn [set_conn x_conns]. rewrite upd_same.
  pose proof (unreg_good h x n k G Ek) as G1. set (k1 := n_with_tcp (n_state k0) false false false k0).
  assert (G2 : good h None (Some n) None (set_conn n (Some k1) (set_conn n (Some k0) (set_addr (n_addr k) None x)))).
  { apply (good_prim h None (Some n) None (set_conn n (Some k0) (set_addr (n_addr k) None x))).
    - apply (good_prim h None (Some n) None (set_addr (n_addr k) None x)); [exact G1|]. apply P_lost; auto.
    - apply P_lost; auto; [cbn; apply upd_same|discriminate]. }
  destruct (cleanup_tail h again n k1 (filter (fun i => match x_chans x i with Some _ => true | None => false end) (listed k)) _ G2) as (x' & Ex & G' & S & St).
  - cbn. apply upd_same.
  - reflexivity.
  - reflexivity.
  - intros i. apply (todo_in x k i).
  - exists x'. split; [exact Ex|]. split; [exact G'|]. intros q Eq _. inversion Eq; subst q. split; [|exact St].
    apply (swept_from n x _ x' S); try reflexivity. intros m q Eq'. cbn. unfold upd. destruct (Nat.eqb_spec m n) as [-> | N]; [|exists q; split; [exact Eq'|]; split; [reflexivity|intros _; apply same_tcp_refl]].
    exists k1. split; [reflexivity|]. rewrite Ek in Eq'. inversion Eq'; subst. split; [reflexivity|congruence].
Qed.
