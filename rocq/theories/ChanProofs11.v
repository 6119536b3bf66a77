(** New operations and handles; loss of connections; cacheClear(); close(). *)
From Coq Require Import ZArith List Bool Arith Lia.
From Verif Require Import Base BaseProofs ChanModel ChanSpec ChanProofs ChanProofs2 ChanProofs3 ChanProofs4 ChanProofs5 ChanProofs6 ChanProofs7 ChanProofs8 ChanProofs9 ChanProofs10.
Import ListNotations.

Definition steady (x y : ctx) : Prop := x_no y = x_no x /\ x_nw y = x_nw x /\ x_names y = x_names x.
Lemma steady_trans x y z : steady x y -> steady y z -> steady x z.
Proof. intros (A1 & A2 & A3) (B1 & B2 & B3). split; [congruence|]. split; congruence. Qed.
Lemma steady_create_one n i x y : create_one n i x = Some y -> steady x y.
Proof.
  unfold create_one. destruct (x_conns x n) as [k|]; [|discriminate]. destruct (x_chans x i) as [c|]; [|intros E; inversion E; repeat split].
  destruct (c_state c); try destruct (n_bev k); intros E; inversion E; repeat split.
Qed.
Lemma steady_each {A} (f : A -> ctx -> option ctx) l : (forall a x y, f a x = Some y -> steady x y) -> forall x y, each f l x = Some y -> steady x y.
Proof.
  intros H. induction l as [|a l IH]; intros x y E; cbn [each] in E; [inversion E; repeat split|]. destruct (f a x) as [z|] eqn:Ez; [|discriminate]. cbn [ChanModel.bind] in E.
  apply (steady_trans _ z); [apply (H _ _ _ Ez)|apply (IH _ _ E)].
Qed.
Lemma steady_attach i n x y : attach i n x = Some y -> steady x y.
Proof.
  unfold attach. destruct (x_chans x i) as [c|]; [|discriminate]. destruct (x_conns x n) as [k|]; [|discriminate]. unfold create_channels. destruct (x_conns _ n) as [k1|]; [|discriminate].
  destruct (n_ready k1); [|intros E; inversion E; repeat split]. intros E. apply (steady_trans _ (set_chan i (Some (c_with_state Connecting (c_with_conn (Some n) c))) (set_conn n (Some (n_with_lists (with_ i (n_pending k)) (n_creating k) (n_bysid k) k)) x))); [repeat split|].
  apply (steady_each _ _ (fun a u v => steady_create_one n a u v) _ _ E).
Qed.
Lemma nodup_key {K V} (l : list (K * V)) k a b : NoDup (map fst l) -> In (k, a) l -> In (k, b) l -> a = b.
Proof.
  induction l as [|(q, v) l IH]; intros Nd I J; [destruct I|]. cbn in Nd. inversion Nd as [|? ? N1 N2]; subst.
  destruct I as [I | I], J as [J | J]; [congruence| | |auto].
  - injection I as -> ->. exfalso. apply N1. apply (in_map fst) in J. exact J.
  - injection J as -> ->. exfalso. apply N1. apply (in_map fst) in I. exact I.
Qed.
Lemma build_chan_detail h name server ok x : fine h x -> x_run x = true -> (server = None \/ ok = true) ->
  exists y i c, build_chan name server ok x = Some (y, Some i) /\ fine h y /\ x_no y = x_no x /\ x_nw y = x_nw x /\ In ((name, server), i) (x_names y) /\ (forall j, In ((name, server), j) (x_names x) -> j = i) /\
    x_chans y i = Some c /\ c_name c = name /\ c_server c = server.
Proof.
  intros G Hr Hok. destruct (build_chan_good h name server ok x G) as (y & o & Ey & Gy & Hi); [intros _ N; destruct Hok; congruence|].
  assert (Hd : exists i, o = Some i /\ x_no y = x_no x /\ x_nw y = x_nw x /\ In ((name, server), i) (x_names y) /\ (forall j, In ((name, server), j) (x_names x) -> j = i)).
  { unfold build_chan in Ey. rewrite Hr in Ey. cbn [negb] in Ey. destruct (find_name (name, server) (x_names x)) as [i|] eqn:Ef.
    - inversion Ey; subst. exists i. pose proof (find_name_some _ _ _ Ef) as I. repeat split; auto. intros j J. apply (nodup_key _ _ _ _ (d_nd _ (gD _ _ _ _ _ G)) J I).
    - assert (Nf : forall j, In ((name, server), j) (x_names x) -> j = x_nc x). { intros j J. exfalso. apply (find_name_none _ _ Ef). change (name, server) with (fst ((name, server), j)). apply in_map, J. }
      fold (newchan name server x) in Ey. assert (L : In ((name, server), x_nc x) (x_names (newchan name server x))) by (cbn; apply in_app_iff; right; left; reflexivity).
      destruct server as [a|].
      + destruct Hok as [Hok | ->]; [discriminate|]. assert (Sb : forall u w, build_conn a false true (newchan name (Some a) x) = (u, w) -> steady (newchan name (Some a) x) u /\ exists n, w = Some n).
        { intros u w E. unfold build_conn in E. change (x_run (newchan name (Some a) x)) with (x_run x) in E. rewrite Hr in E. cbn [negb] in E. destruct (x_addr _ a); inversion E; subst; (split; [repeat split|eauto]). }
        destruct (build_conn a false true (newchan name (Some a) x)) as (u, w). destruct (Sb u w eq_refl) as ((S1 & S2 & S3) & n & ->). destruct (attach (x_nc x) n u) as [v|] eqn:Ev; [|discriminate]. cbn [ChanModel.bind] in Ey. inversion Ey; subst.
        destruct (steady_attach _ _ _ _ Ev) as (T1 & T2 & T3). exists (x_nc x). split; [reflexivity|]. split; [rewrite T1, S1; reflexivity|]. split; [rewrite T2, S2; reflexivity|]. split; [rewrite T3, S3; exact L|exact Nf].
      + inversion Ey; subst. exists (x_nc x). split; [reflexivity|]. split; [reflexivity|]. split; [reflexivity|]. split; [exact L|exact Nf]. }
  destruct Hd as (i & -> & H1 & H2 & H3 & H4). destruct (d_in _ (gD _ _ _ _ _ Gy) _ _ H3) as (c & Ec & Ek). assert (E1 : c_name c = name) by congruence. assert (E2 : c_server c = server) by congruence. clear Ek. exists y, i, c. split; [exact Ey|]. split; [exact Gy|]. auto 10.
Qed.
Lemma exec_detail h name server ok x y : fine h x -> x_run x = true -> (server = None \/ ok = true) -> step x (EExec name server ok) = Some y ->
  exists i c, x_chans y i = Some c /\ In (x_no x) (c_refs c) /\ c_name c = name /\ c_server c = server /\ In ((name, server), i) (x_names y) /\ (forall j, In ((name, server), j) (x_names x) -> j = i).
Proof.
  intros G Hr Hok E. destruct (build_chan_detail h name server ok x G Hr Hok) as (u & i & c & Eu & Gu & H1 & H2 & H3 & H4 & Ec & Hn & Hs).
  destruct (exec_good h name server ok x G) as (v & Ev & Gv); [intros _ N; destruct Hok; congruence|]. unfold step in E. cbn [handle] in E. rewrite Ev in E. cbn [ChanModel.bind] in E.
  unfold exec in Ev. rewrite Eu in Ev. cbn [ChanModel.bind] in Ev. rewrite Ec in Ev. set (c1 := c_with_refs (c_refs c ++ [x_no u]) (c_with_ops (c_pending c ++ [x_no u]) (c_ops c) c)) in *.
  pose proof (keeps_create_operations (fun _ => False) (fun _ => False) (fun _ => False) ((fun _ => False), (fun _ => False), (fun _ => False)) _ _ _ Ev) as K.
  destruct (g_op _ _ _ _ _ _ K i c1 (x_no u)) as (c2 & Ec2 & I2 & L1 & L2 & _); [cbn; apply upd_same|cbn; apply in_app_iff; right; left; reflexivity|auto|].
  destruct (create_operations_watch _ _ _ Ev) as (_ & _ & Nm & _). destruct (settle h v i c2 (x_no u) Gv Ec2 I2) as (z & Ez & _ & _ & Cz & _). assert (z = y) by congruence. subst z.
  destruct (collect_good h v Gv) as (z & Ez' & _ & Kz). assert (z = y) by congruence. subst z.
  exists i, c2. split; [exact Cz|]. rewrite <- H1. split; [exact I2|]. split; [rewrite L1; exact Hn|]. split; [rewrite L2; exact Hs|]. split; [rewrite (k_names _ _ Kz), Nm; exact H3|exact H4].
Qed.
Lemma watch_detail h name server ok x y : fine h x -> x_run x = true -> (server = None \/ ok = true) -> step x (EWatch name server ok) = Some y ->
  exists i c, x_chans y i = Some c /\ In (x_nw x) (map fst (c_watch c)) /\ c_name c = name /\ c_server c = server.
Proof.
  intros G Hr Hok E. destruct (build_chan_detail h name server ok x G Hr Hok) as (u & i & c & Eu & Gu & H1 & H2 & H3 & H4 & Ec & Hn & Hs).
  destruct (watch_good h name server ok x G) as (v & Ev & Gv); [intros _ N; destruct Hok; congruence|]. unfold step in E. cbn [handle] in E. rewrite Ev in E. cbn [ChanModel.bind] in E.
  unfold watch in Ev. rewrite Eu in Ev. cbn [ChanModel.bind] in Ev. rewrite Ec in Ev. inversion Ev. clear Ev.
  destruct (collect_good h v Gv) as (z & Ez' & _ & Kz). assert (z = y) by congruence. subst z. exists i. eexists. split.
  - apply (k_held _ _ Kz); [subst v; cbn; apply upd_same|]. unfold held. cbn. destruct (c_watch c); cbn; apply orb_true_r.
  - cbn. rewrite map_app, <- H2. split; [apply in_app_iff; right; left; reflexivity|]. auto.
Qed.
(** ** Loss of a connection *)
Lemma lost_detail h v again n k x : fine h x -> x_conns x n = Some k -> n_bev k = true -> exists y, step x (ELost n v again) = Some y /\ fine h y /\
  (forall i c, x_chans y i = Some c -> c_conn c = Some n -> c_state c = Searching) /\
  (forall k', x_conns y n = Some k' -> n_bev k' = false).
Proof.
  intros G Ek Hb. destruct (lost_good h again v n x G) as (u & Eu & Gu & Hu). destruct (Hu k Ek Hb) as (S & _). destruct (collect_good h u Gu) as (y & Ey & Gy & Ky).
  exists y. split; [unfold step; cbn [handle]; rewrite Eu; exact Ey|]. split; [exact Gy|]. split.
  - intros i c Ec. apply (s_gone _ _ _ S i c), (k_less _ _ Ky _ _ Ec).
  - intros k' Ek'. destruct (k_conns _ _ Ky _ _ Ek') as (k0 & E0 & (_ & _ & T & _)). rewrite T. apply (s_end _ _ _ S _ E0).
Qed.
Lemma live_to o l s q : fold_left (live o) l s = Some q -> (forall e, In e l -> match e with OFail o' | OEnd o' => o <> o' | _ => True end) -> q = Ended -> s = Some Ended.
Proof.
  revert s. induction l as [|e l IH]; intros s H Hl Hq; cbn [fold_left] in H; [congruence|]. assert (H1 : live o s e = Some Ended) by (apply IH; [exact H|intros f I; apply Hl; right; exact I|exact Hq]).
  pose proof (Hl e (or_introl eq_refl)) as He. destruct e; cbn in H1; try exact H1; (destruct (Nat.eqb_spec o op) as [-> | N]; [|exact H1]); try (exfalso; apply He; reflexivity); destruct s as [[]|]; discriminate.
Qed.
Lemma live_from o l s q : fold_left (live o) l s = Some q -> (forall e, In e l -> match e with OLost o' => o <> o' | _ => True end) -> q = Waiting -> s = Some Waiting.
Proof.
  revert s. induction l as [|e l IH]; intros s H Hl Hq; cbn [fold_left] in H; [congruence|]. assert (H1 : live o s e = Some Waiting) by (apply IH; [exact H|intros f I; apply Hl; right; exact I|exact Hq]).
  pose proof (Hl e (or_introl eq_refl)) as He. destruct e; cbn in H1; try exact H1; (destruct (Nat.eqb_spec o op) as [-> | N]; [|exact H1]); try (exfalso; apply He; reflexivity); destruct s as [[]|]; discriminate.
Qed.
(** ** Cache *)
Lemma clean_names h name again l : forall x y key i c u, fine h x -> NoDup (map fst l) -> (forall e, In e l -> In e (x_names x)) ->
  each (fun e x => ChanModel.bind (clean_one name Clean again e x) collect) l x = Some y -> In (key, i) (x_names x) -> x_chans x i = Some c -> In u (c_refs c) -> In (key, i) (x_names y).
Proof.
  induction l as [|(key0, i0) l IH]; intros x y key i c u G Nd Hl E I Ec Iu.
  { cbn [each] in E. inversion E; subst. exact I. }
  destruct (clean_loop h name Clean again [(key0, i0)] x G) as (z & Ez & Gz); [cbn; constructor; [intros []|constructor]|intros e [<- | []]; apply Hl; left; reflexivity|].
  pose proof (keeps_clean (fun _ => False) (fun _ => False) (fun _ => False) ((fun _ => False), (fun _ => False), (fun _ => False)) h name Clean again [(key0, i0)] ltac:(discriminate) ltac:(discriminate) x z G ltac:(cbn; constructor; [intros []|constructor]) ltac:(intros e [<- | []]; apply Hl; left; reflexivity) Ez) as K.
  cbn [each ChanModel.bind] in E, Ez. destruct (clean_one name Clean again (key0, i0) x) as [v|] eqn:Ev; [|discriminate]. cbn [ChanModel.bind] in E, Ez. destruct (collect v) as [w|] eqn:Ew; [|discriminate]. cbn [ChanModel.bind] in E, Ez.
  assert (w = z) by (inversion Ez; reflexivity). clear Ez. subst w. cbn in Nd. inversion Nd as [|? ? Nk Nd']; subst.
  destruct (g_op _ _ _ _ _ _ K i c u Ec Iu (fun F => F)) as (c' & Ec' & Iu' & _).
  assert (Gv : fine h v /\ (forall p, In p (x_names x) -> p <> (key0, i0) \/ snd p = i -> In p (x_names v))).
  { unfold clean_one in Ev. destruct (negb _); [inversion Ev; subst; split; [exact G|auto]|]. destruct (d_in _ (gD _ _ _ _ _ G) key0 i0 (Hl _ (or_introl eq_refl))) as (c0 & Ec0 & _). rewrite Ec0 in Ev.
    set (names := filter (fun p => negb (key_eqb key0 (fst p))) (x_names x)) in *.
    assert (G1 : fine h (set_names names x)). { apply (good_prim h None None None x); [exact G|]. apply P_names; [intros p J; apply filter_In in J; apply J|]. apply nodup_filter, (d_nd _ (gD _ _ _ _ _ G)). }
    destruct (c_refs c0) eqn:R0; [destruct (c_watch c0)|]; inversion Ev; subst; (split; [assumption|]); auto.
    intros p Ip Hp. cbn. apply filter_In. split; [exact Ip|]. destruct (key_eqb key0 (fst p)) eqn:Ek; [|reflexivity]. apply key_eqb_eq in Ek. exfalso.
    destruct p as (kp, jp). cbn in Ek, Hp. subst kp. destruct (d_in _ (gD _ _ _ _ _ G) _ _ Ip) as (cp & Ecp & Hkp).
    assert (J : jp = i0) by (apply (nodup_key _ _ _ _ (d_nd _ (gD _ _ _ _ _ G)) Ip (Hl _ (or_introl eq_refl)))).
    subst jp. destruct Hp as [Hp | Hp]; [congruence|]. subst i0. assert (c0 = c) by congruence. subst. rewrite R0 in Iu. destruct Iu. }
  destruct Gv as (Gv & Kv). destruct (collect_good h v Gv) as (z' & Ez' & _ & Kz). assert (z' = z) by congruence. subst z'.
  apply (IH z y key i c' u); auto.
  - intros e J. rewrite (k_names _ _ Kz). apply Kv; [apply Hl; right; exact J|]. left. intros Ee. apply Nk. rewrite Ee in J. apply (in_map fst) in J. exact J.
  - rewrite (k_names _ _ Kz). apply Kv; [exact I|]. right. reflexivity.
Qed.
Lemma close_detail h again x : fine h x -> x_run x = true -> exists y, step x (EClose again) = Some y /\ fine h y /\ x_run y = false /\ x_names y = [] /\
  (forall n k k', x_conns x n = Some k -> x_addr x (n_addr k) = Some n \/ n_bev k = false -> x_conns y n = Some k' -> n_bev k' = false).
Proof.
  intros G Hr. destruct (close_good h again x G) as (u & Eu & Gu). destruct (collect_good h u Gu) as (y & Ey & Gy & Ky). exists y. split; [unfold step; cbn [handle]; rewrite Eu; exact Ey|]. split; [exact Gy|].
  unfold close in Eu. rewrite Hr in Eu. cbn [negb] in Eu. assert (G1 : fine h (stop x)) by (apply (good_prim h None None None x); [exact G|apply P_stop]).
  set (l := filter (fun n => match x_conns x n with Some k => match x_addr x (n_addr k) with Some m => Nat.eqb n m | None => false end | None => false end) (seq 0 (x_nn x))) in *.
  destruct (close_loop h again l (stop x) G1) as (v & Ev & Gv & Rv & Hv).
  { intros n I E. unfold l in I. apply filter_In in I. destruct I as (_ & I). cbn in E. rewrite E in I. discriminate. }
  rewrite Ev in Eu. cbn [ChanModel.bind] in Eu. inversion Eu; subst u. rewrite (k_run _ _ Ky), (k_names _ _ Ky). split; [cbn; rewrite Rv; reflexivity|]. split; [reflexivity|].
  intros n k k' Ek Hk Ek'. destruct (k_conns _ _ Ky _ _ Ek') as (k0 & E0 & (_ & _ & T & _)). destruct (Hv n k Ek) as (k1 & E1 & B1). cbn in E0. assert (k1 = k0) by congruence. subst k1.
  rewrite T. apply B1. destruct Hk as [Hk | Hk]; [left|right; exact Hk]. unfold l. apply filter_In. split; [apply in_seq; pose proof (a_conn _ (gA _ _ _ _ _ G) _ _ Ek); lia|]. rewrite Ek, Hk. apply Nat.eqb_refl.
Qed.
