(** The cache of channels. *)
From Coq Require Import ZArith List Bool Arith Lia.
From Verif Require Import Base BaseProofs ChanModel ChanSpec ChanProofs ChanProofs2 ChanProofs3 ChanProofs4 ChanProofs5 ChanProofs6 ChanProofs7 ChanProofs8 ChanProofs9 ChanProofs10 ChanProofs11.
Import ListNotations.

Definition caches (x y : ctx) : Prop := forall p, In p (x_names x) -> In p (x_names y).
Lemma caches_same x y : x_names y = x_names x -> caches x y.
Proof. intros E p. rewrite E. auto. Qed.
Lemma caches_build_chan name server ok x y o : build_chan name server ok x = Some (y, o) -> caches x y.
Proof.
  unfold build_chan. destruct (negb (x_run x)); [intros E; inversion E; apply caches_same; reflexivity|]. destruct (find_name _ _); [intros E; inversion E; apply caches_same; reflexivity|].
  fold (newchan name server x). assert (N : caches x (newchan name server x)) by (intros p I; cbn; apply in_app_iff; left; exact I).
  destruct server as [a|]; [|intros E; inversion E; exact N]. assert (B : forall u o', build_conn a false ok (newchan name (Some a) x) = (u, o') -> x_names u = x_names (newchan name (Some a) x)).
  { intros u o'. unfold build_conn. destruct (negb _); [intros E; inversion E; reflexivity|]. destruct (x_addr _ a); [intros E; inversion E; reflexivity|]. destruct (false || ok); intros E; inversion E; reflexivity. }
  destruct (build_conn a false ok (newchan name (Some a) x)) as (u, [n|]).
  - destruct (attach (x_nc x) n u) as [v|] eqn:Ev; [|discriminate]. cbn [ChanModel.bind]. intros E. inversion E; subst. destruct (steady_attach _ _ _ _ Ev) as (_ & _ & Nm). intros p I. rewrite Nm, (B _ _ eq_refl). apply N, I.
  - intros E. inversion E; subst. intros p I. rewrite (B _ _ eq_refl). apply N, I.
Qed.
Lemma caches_leave_op i op x y : leave_op i op x = Some y -> x_names y = x_names x.
Proof.
  unfold leave_op. destruct (x_chans x i) as [c|]; [|intros E; inversion E; reflexivity]. destruct (is_in op (c_ops c)); [|intros E; inversion E; reflexivity]. destruct (c_conn c) as [n|]; [|discriminate].
  destruct (x_conns x n); [|discriminate]. intros E; inversion E. reflexivity.
Qed.
Lemma caches_ns h ok after : forall before x y, fine h x -> x_ns x = before ++ after -> ns_check ok before after x = Some y -> x_names y = x_names x.
Proof.
  induction after as [|(a, o) l IH]; intros before x y G Hn E; cbn [ns_check] in E; [inversion E; reflexivity|].
  destruct (match o with Some n => match x_conns x n with Some k => match n_state k with Disconnected => false | _ => true end | None => false end | None => false end).
  - apply (IH (before ++ [(a, o)]) x y G); [rewrite Hn, <- app_assoc; reflexivity|exact E].
  - destruct (build_conn_good h None None None a false (ok a) x G) as (z & o' & Eb & G2 & F2 & Hc & Hs2 & Hnn & Hno & _ & Hk). rewrite Eb in E. destruct o' as [n|]; [|inversion E; subst; apply (r_names _ _ _ F2)].
    destruct (Hnn n eq_refl) as (k & Ek & Ea & Er). rewrite Ek in E.
    assert (G3 : fine h (set_conn n (Some (n_with_ns k)) z)) by (apply (good_prim h None None None z); [exact G2|apply P_nsconn, Ek]).
    assert (G4 : fine h (set_ns (before ++ (a, Some n) :: l) (set_conn n (Some (n_with_ns k)) z))).
    { eapply good_prim; [exact G3|]. apply P_ns. intros b m I. cbn. unfold upd. destruct (Nat.eqb_spec m n); [discriminate|].
      assert (I' : In (b, Some m) (x_ns x)). { rewrite Hn. apply in_app_iff in I. apply in_app_iff. destruct I as [I | [I | I]]; [left; exact I|inversion I; congruence|right; right; exact I]. }
      destruct (a_ns _ (gA _ _ _ _ _ G) _ _ I') as (q & Eq). rewrite (Hk _ _ Eq). discriminate. }
    destruct (collect_good h _ G4) as (u & Eu & Gu & Ku). rewrite Eu in E. cbn [ChanModel.bind] in E.
    rewrite (IH (before ++ [(a, Some n)]) u y Gu); [|rewrite (k_ns _ _ Ku); cbn; rewrite <- app_assoc; reflexivity|exact E]. rewrite (k_names _ _ Ku). cbn. apply (r_names _ _ _ F2).
Qed.
Lemma handle_names h e x y : fine h x -> handle e x = Some y -> match e with EClean _ _ _ | EClose _ => False | _ => True end -> caches x y.
Proof.
  intros G E He. destruct e as [name server ok|i op|i op|name server ok|i w|i a ok|i|n|n|n v again|n i sid ok|n sid again|n ok|name a again|ok|again]; try contradiction; cbn [handle] in E.
  - unfold exec in E. destruct (build_chan name server ok x) as [(u, o)|] eqn:Eb; [|discriminate]. cbn [ChanModel.bind] in E. apply caches_build_chan in Eb. destruct o as [i|]; [|inversion E; subst; exact Eb].
    destruct (x_chans u i); [|discriminate]. destruct (create_operations_watch _ _ _ E) as (_ & _ & Nm & _). intros p I. rewrite Nm. apply Eb, I.
  - unfold drop_op in E. destruct (leave_op i op x) as [u|] eqn:Eu; [|discriminate]. cbn [ChanModel.bind] in E. apply caches_leave_op in Eu. apply caches_same. destruct (x_chans u i); inversion E; subst; exact Eu.
  - unfold end_op in E. apply caches_same. destruct (x_chans x i) as [c|]; [|inversion E; reflexivity]. destruct (is_in op (c_ops c)); [|inversion E; reflexivity]. destruct (leave_op i op x) as [u|] eqn:Eu; [|discriminate]. cbn [ChanModel.bind] in E. apply caches_leave_op in Eu. inversion E; subst. exact Eu.
  - unfold watch in E. destruct (build_chan name server ok x) as [(u, o)|] eqn:Eb; [|discriminate]. cbn [ChanModel.bind] in E. apply caches_build_chan in Eb. destruct o as [i|]; [|inversion E; subst; exact Eb].
    destruct (x_chans u i); [|discriminate]. inversion E; subst. exact Eb.
  - apply caches_same. destruct (x_chans x i); inversion E; reflexivity.
  - apply caches_same. unfold found in E. destruct (x_chans x i) as [c|]; [|inversion E; reflexivity]. destruct (c_state c); try (inversion E; reflexivity).
    destruct (build_conn_good h None None None a false ok x G) as (z & o & Eb & _ & F & _). rewrite Eb in E. destruct o as [n|]; [|inversion E; subst; apply (r_names _ _ _ F)]. destruct (steady_attach _ _ _ _ E) as (_ & _ & Nm). rewrite Nm. apply (r_names _ _ _ F).
  - apply caches_same. destruct (x_chans x i) as [c|]; [destruct (c_state c)|]; inversion E; reflexivity.
  - apply caches_same. unfold tcp_up in E. destruct (x_conns x n) as [k|]; [|inversion E; reflexivity]. destruct (n_state k); try (inversion E; reflexivity). destruct (n_bev k); inversion E; reflexivity.
  - apply caches_same. unfold validated, create_channels in E. destruct (x_conns x n) as [k|]; [|inversion E; reflexivity]. destruct (open k); [|inversion E; reflexivity].
    destruct (x_conns _ n) as [q|]; [|discriminate]. destruct (n_ready q); [|inversion E; reflexivity]. destruct (steady_each _ _ (fun a u v => steady_create_one n a u v) _ _ E) as (_ & _ & Nm). exact Nm.
  - apply caches_same. destruct (lost_good h again v n x G) as (u & Eu & _ & Hu). assert (u = y) by congruence. subst u. unfold lost in E. destruct (x_conns x n) as [k|] eqn:Ek; [|inversion E; reflexivity]. destruct (n_bev k) eqn:Bk; [|inversion E; reflexivity].
    destruct (Hu k eq_refl Bk) as (S & _). apply (s_names _ _ _ S).
  - apply caches_same. unfold created in E. destruct (x_conns x n) as [k|]; [|inversion E; reflexivity]. destruct (open k); [|inversion E; reflexivity].
    destruct (is_in i (n_creating k)); [|inversion E; reflexivity]. destruct (x_chans x i) as [c|]; [|inversion E; reflexivity]. destruct (negb ok); [inversion E; reflexivity|].
    destruct (create_operations _ _) as [u|] eqn:Eu; [|discriminate]. cbn [ChanModel.bind] in E. destruct (create_operations_watch _ _ _ Eu) as (_ & _ & Nm & _). destruct (x_chans u i); [|discriminate]. inversion E; subst. exact Nm.
  - apply caches_same. unfold destroyed in E. destruct (x_conns x n) as [k|]; [|inversion E; reflexivity]. destruct (open k); [|inversion E; reflexivity]. destruct (find_sid sid (n_bysid k)) as [i|]; [|inversion E; reflexivity].
    destruct (x_chans x i) as [c|] eqn:Ec; [|inversion E; reflexivity]. destruct (disconnect_good h again None i c x G Ec) as (u & c' & Eu & _ & F & _). assert (u = y) by congruence. subst u. apply (r_names _ _ _ F).
  - apply caches_same. unfold tick in E. destruct (x_conns x n) as [k|]; [|inversion E; reflexivity]. destruct (n_timer k); [|inversion E; reflexivity]. destruct (n_state k); [destruct ok| | |]; inversion E; reflexivity.
  - apply caches_same, (caches_ns h ok (x_ns x) [] x y G eq_refl E).
Qed.
Lemma step_names h e x y key i c u : fine h x -> honest x e -> (h = true -> no_failure e) -> step x e = Some y -> ~ forgets e -> In (key, i) (x_names x) -> x_chans x i = Some c -> In u (c_refs c) -> In (key, i) (x_names y).
Proof.
  intros G Hh Hn E Nf I Ec Iu. destruct (handle_good h e x G Hh Hn) as (v & Ev & Gv). unfold step in E. rewrite Ev in E. cbn [ChanModel.bind] in E. destruct (collect_good h v Gv) as (z & Ez & _ & Kz). assert (z = y) by congruence. subst z.
  rewrite (k_names _ _ Kz). assert (Hc : match e with EClean _ Clean _ => True | EClean _ _ _ | EClose _ => False | _ => True end) by (destruct e; try exact Logic.I; [destruct a|]; cbn in Nf; try exact Logic.I; apply Nf; exact Logic.I).
  destruct e as [name server ok|j op|j op|name server ok|j w|j a ok|j|n|n|n w again|n j sid ok|n sid again|n ok|name a again|ok|again]; try (apply (handle_names h _ x v G Ev Logic.I), I); [|contradiction].
  destruct a; try contradiction. cbn [handle] in Ev. unfold clean in Ev. apply (clean_names h name again (x_names x) x v key i c u G (d_nd _ (gD _ _ _ _ _ G))); auto.
Qed.
Lemma run_names h es : forall x y key i c u, fine h x -> honest_run x es -> (h = true -> Forall no_failure es) -> run x es = Some y -> Forall (fun e => ~ drops e u /\ ~ forgets e) es -> In (key, i) (x_names x) -> x_chans x i = Some c -> In u (c_refs c) ->
  In (key, i) (x_names y) /\ exists c', x_chans y i = Some c' /\ In u (c_refs c').
Proof.
  induction es as [|e es IH]; intros x y key i c u G H Hf E Hd I Ec Iu; cbn [run] in E; [inversion E; subst; eauto|]. destruct (step x e) as [z|] eqn:Ez; [|discriminate]. cbn [ChanModel.bind] in E.
  destruct H as (H1 & H2). inversion Hd as [|? ? (Nd & Nf) Hd2]; subst. assert (Hn : h = true -> no_failure e) by (intros ->; pose proof (Hf eq_refl) as F; inversion F; assumption).
  assert (Hf2 : h = true -> Forall no_failure es) by (intros ->; pose proof (Hf eq_refl) as F; inversion F; assumption).
  destruct (step_good h e x G H1 Hn) as (z' & Ez' & Gz). assert (z' = z) by congruence. subst z'.
  destruct (g_op _ _ _ _ _ _ (step_keeps h e x z G H1 Hn Ez) i c u Ec Iu Nd) as (c1 & E1 & I1 & _).
  apply (IH z y key i c1 u Gz (H2 z Ez) Hf2 E Hd2); auto. apply (step_names h e x z key i c u); auto.
Qed.
(** Drop and Disconnect empty the cache of the names asked for. *)
Lemma clean_forgets h name a again l : a <> Clean -> forall x y, fine h x -> NoDup (map fst l) -> (forall e, In e l -> In e (x_names x)) ->
  each (fun e x => ChanModel.bind (clean_one name a again e x) collect) l x = Some y ->
  (forall p, In p (x_names y) -> In p (x_names x)) /\ forall key i, In (key, i) l -> (name = [] \/ fst key = name) -> ~ In key (map fst (x_names y)).
Proof.
  intros Na. induction l as [|(key0, i0) l IH]; intros x y G Nd Hl E.
  { cbn [each] in E. inversion E; subst. split; [auto|]. intros key i []. }
  cbn [each] in E. cbn in Nd. inversion Nd as [|? ? Nk Nd']; subst.
  destruct (clean_one name a again (key0, i0) x) as [v|] eqn:Ev; [|discriminate]. cbn [ChanModel.bind] in E. destruct (collect v) as [w|] eqn:Ew; [|discriminate]. cbn [ChanModel.bind] in E.
  assert (H : fine h v /\ ((name = [] \/ fst key0 = name) -> ~ In key0 (map fst (x_names v))) /\ (forall p, In p (x_names v) -> In p (x_names x)) /\ (forall p, In p (x_names x) -> fst p <> key0 -> In p (x_names v))).
  { unfold clean_one in Ev. destruct (negb _) eqn:Em.
    - inversion Ev; subst. split; [exact G|]. split; [|auto]. intros H. exfalso. apply negb_true_iff in Em. destruct name as [|b nm]; [discriminate|]. destruct H as [H | H]; [discriminate|].
      rewrite H in Em. rewrite (proj2 (str_eqb_eq _ _) eq_refl) in Em. discriminate.
    - destruct (d_in _ (gD _ _ _ _ _ G) key0 i0 (Hl _ (or_introl eq_refl))) as (c & Ec & _). rewrite Ec in Ev. set (names := filter (fun p => negb (key_eqb key0 (fst p))) (x_names x)) in *.
      assert (G1 : fine h (set_names names x)). { apply (good_prim h None None None x); [exact G|]. apply P_names; [intros p J; apply filter_In in J; apply J|]. apply nodup_filter, (d_nd _ (gD _ _ _ _ _ G)). }
      assert (Hv : fine h v /\ x_names v = names).
      { destruct a; [contradiction|inversion Ev; subst; split; [exact G1|reflexivity]|]. destruct (disconnect_good h again None i0 c (set_names names x) G1 Ec) as (v' & c' & Ev' & Gv & Fv & _). assert (v' = v) by congruence. subst v'.
        split; [exact Gv|]. apply (r_names _ _ _ Fv). }
      destruct Hv as (Gv & ->). split; [exact Gv|]. split; [|split].
      + intros _ J. apply in_map_iff in J. destruct J as (p & Ep & J). apply filter_In in J. destruct J as (_ & J). rewrite Ep in J. rewrite (proj2 (key_eqb_eq key0 key0) eq_refl) in J. discriminate.
      + intros p J. apply filter_In in J. apply J.
      + intros p J N. apply filter_In. split; [exact J|]. destruct (key_eqb key0 (fst p)) eqn:E'; [|reflexivity]. apply key_eqb_eq in E'. congruence. }
  destruct H as (Gv & N1 & N2 & Kn). destruct (collect_good h v Gv) as (w' & Ew' & Gw & Kw). assert (w' = w) by congruence. subst w'.
  destruct (IH w y Gw Nd') as (M1 & M2); [|exact E|].
  { intros e J. rewrite (k_names _ _ Kw). apply Kn; [apply Hl; right; exact J|]. intros Ee. apply Nk. rewrite <- Ee. apply in_map, J. }
  rewrite (k_names _ _ Kw) in M1. split; [intros p J; apply N2, M1, J|]. intros key i [J | J] Hm; [|apply (M2 key i J Hm)]. inversion J; subst key i. intros K. apply (N1 Hm). apply in_map_iff in K. destruct K as (p & <- & K). apply in_map, M1, K.
Qed.
(** References are only added by exec(). *)
Definition refs_from (x y : ctx) : Prop := forall i c, x_chans y i = Some c -> exists c0, x_chans x i = Some c0 /\ c_refs c = c_refs c0.
Lemma refs_same x y : x_chans y = x_chans x -> refs_from x y.
Proof. intros E i c Ec. rewrite E in Ec. eauto. Qed.
Lemma refs_trans x y z : refs_from x y -> refs_from y z -> refs_from x z.
Proof. intros A B i c Ec. destruct (B i c Ec) as (c1 & E1 & R1), (A i c1 E1) as (c0 & E0 & R0). exists c0. split; [exact E0|congruence]. Qed.
Lemma refs_chan x y i c c' : x_chans x i = Some c -> x_chans y = upd (x_chans x) i (Some c') -> c_refs c' = c_refs c -> refs_from x y.
Proof. intros Ec E R j d Ed. rewrite E in Ed. unfold upd in Ed. destruct (Nat.eqb_spec j i) as [-> | N]; [inversion Ed; subst; eauto|eauto]. Qed.
Lemma refs_create_channels n x y : create_channels n x = Some y -> refs_from x y.
Proof.
  unfold create_channels. destruct (x_conns x n) as [k|]; [|discriminate]. destruct (n_ready k); [|intros E; inversion E; apply refs_same; reflexivity]. generalize (n_pending k). clear k. intros l. revert x.
  induction l as [|i l IH]; intros x E; cbn [each] in E; [inversion E; apply refs_same; reflexivity|]. destruct (create_one n i x) as [z|] eqn:Ez; [|discriminate]. cbn [ChanModel.bind] in E. apply (refs_trans _ z); [|apply IH, E].
  unfold create_one in Ez. destruct (x_conns x n) as [k|]; [|discriminate]. destruct (x_chans x i) as [c|] eqn:Ec; [|inversion Ez; apply refs_same; reflexivity]. destruct (c_state c); try (inversion Ez; apply refs_same; reflexivity).
  destruct (n_bev k); [|discriminate]. inversion Ez; subst. eapply (refs_chan x _ i c); [exact Ec|reflexivity|reflexivity].
Qed.
Lemma refs_attach i n x y : attach i n x = Some y -> refs_from x y.
Proof.
  unfold attach. destruct (x_chans x i) as [c|] eqn:Ec; [|discriminate]. destruct (x_conns x n) as [k|]; [|discriminate]. intros E. eapply refs_trans; [|apply (refs_create_channels _ _ _ E)]. eapply (refs_chan x _ i c); [exact Ec|reflexivity|reflexivity].
Qed.
Lemma refs_create_operations i x y : create_operations i x = Some y -> refs_from x y.
Proof.
  unfold create_operations. destruct (x_chans x i) as [c|] eqn:Ec; [|discriminate]. destruct (c_state c); try (intros E; inversion E; apply refs_same; reflexivity).
  destruct (filter _ _); [intros E; inversion E; eapply (refs_chan x _ i c); [exact Ec|reflexivity|reflexivity]|]. destruct (c_conn c) as [m|]; [|discriminate]. destruct (x_conns x m) as [k|]; [|discriminate]. destruct (n_bev k); [|discriminate].
  intros E. inversion E; subst. eapply (refs_chan x _ i c); [exact Ec|reflexivity|reflexivity].
Qed.
(** An operation for what is not cached gets a channel of its own. *)
Lemma exec_where h name server ok x y : fine h x -> x_run x = true -> (server = None \/ ok = true) -> step x (EExec name server ok) = Some y -> ~ In (name, server) (map fst (x_names x)) ->
  exists i c, x_chans y i = Some c /\ c_refs c = [x_no x].
Proof.
  intros G Hr Hok E Nc. destruct (build_chan_detail h name server ok x G Hr Hok) as (u & i & c & Eu & Gu & H1 & H2 & H3 & H4 & Ec & Hn & Hs).
  assert (Hi : c_refs c = []).
  { clear Hn Hs H1 H2. cut (exists z, refs_from z u /\ x_chans z i = Some (new_channel name server)).
    { intros (z & Rz & Ei). destruct (Rz i c Ec) as (c0 & E0 & R0). rewrite R0. assert (c0 = new_channel name server) by congruence. subst c0. reflexivity. }
     unfold build_chan in Eu. rewrite Hr in Eu. cbn [negb] in Eu. destruct (find_name (name, server) (x_names x)) as [j|] eqn:Ef; [exfalso; apply Nc; change (name, server) with (fst ((name, server), j)); apply in_map, (find_name_some _ _ _ Ef)|].
    fold (newchan name server x) in Eu. destruct server as [a|]; [|inversion Eu; subst; exists (newchan name None x); split; [apply refs_same; reflexivity|cbn; apply upd_same]]. destruct (build_conn a false ok _) as (v, [n|]) eqn:Eb; [|discriminate]. destruct (attach (x_nc x) n v) as [w|] eqn:Ew; [|discriminate]. cbn [ChanModel.bind] in Eu. inversion Eu; subst.
    exists v. split; [apply (refs_attach _ _ _ _ Ew)|]. unfold build_conn in Eb. destruct (negb _); [discriminate|]. destruct (x_addr _ a); [inversion Eb; subst; cbn; apply upd_same|]. destruct (false || ok); inversion Eb; subst; cbn; apply upd_same. }
  destruct (exec_good h name server ok x G) as (v & Ev & Gv); [intros _ N; destruct Hok; congruence|]. unfold step in E. cbn [handle] in E. rewrite Ev in E. cbn [ChanModel.bind] in E.
  unfold exec in Ev. rewrite Eu in Ev. cbn [ChanModel.bind] in Ev. rewrite Ec in Ev. set (c1 := c_with_refs (c_refs c ++ [x_no u]) (c_with_ops (c_pending c ++ [x_no u]) (c_ops c) c)) in *.
  pose proof (keeps_create_operations (fun _ => False) (fun _ => False) (fun _ => False) ((fun _ => False), (fun _ => False), (fun _ => False)) _ _ _ Ev) as K.
  destruct (g_op _ _ _ _ _ _ K i c1 (x_no u)) as (c2 & Ec2 & I2 & L1 & L2 & _); [cbn; apply upd_same|cbn; apply in_app_iff; right; left; reflexivity|auto|].
  destruct (settle h v i c2 (x_no u) Gv Ec2 I2) as (z & Ez & _ & _ & Cz & _). assert (z = y) by congruence. subst z.
  exists i, c2. split; [exact Cz|]. destruct (refs_create_operations _ _ _ Ev i c2 Ec2) as (c0 & E0 & R0). cbn in E0. rewrite upd_same in E0. inversion E0; subst c0. rewrite R0, <- H1. cbn. rewrite Hi. reflexivity.
Qed.
