(** While no connection is lost there is one for each server, and the context knows it. *)
From Coq Require Import ZArith List Bool Arith Lia.
From Verif Require Import Base BaseProofs ChanModel ChanSpec ChanProofs ChanProofs2 ChanProofs3 ChanProofs4 ChanProofs5 ChanProofs6 ChanProofs7 ChanProofs8 ChanProofs9 ChanProofs10 ChanProofs11.
Import ListNotations.

Definition reg (x : ctx) : Prop := forall n k, x_conns x n = Some k -> x_addr x (n_addr k) = Some n.
Definition regs (x y : ctx) : Prop := reg x -> reg y.
Lemma regs_refl x : regs x x.
Proof. intros R. exact R. Qed.
Lemma regs_trans x y z : regs x y -> regs y z -> regs x z.
Proof. unfold regs. auto. Qed.
Lemma regs_same x y : x_addr y = x_addr x -> x_conns y = x_conns x -> regs x y.
Proof. intros E1 E2 R n k. rewrite E1, E2. apply R. Qed.
Lemma regs_conn x y n k0 k : x_addr y = x_addr x -> x_conns y = upd (x_conns x) n (Some k) -> x_conns x n = Some k0 -> n_addr k = n_addr k0 -> regs x y.
Proof. intros E1 E2 E0 Ea R m q E. rewrite E2 in E. rewrite E1. apply upd_conn_cases in E. destruct E as [(-> & ->) | (N & E)]; [rewrite Ea; apply R, E0|apply R, E]. Qed.
Lemma regs_each {A} (f : A -> ctx -> option ctx) l : (forall a x y, In a l -> f a x = Some y -> regs x y) -> forall x y, each f l x = Some y -> regs x y.
Proof.
  induction l as [|a l IH]; intros H x y E; cbn [each] in E; [inversion E; apply regs_refl|]. destruct (f a x) as [z|] eqn:Ez; [|discriminate]. cbn [ChanModel.bind] in E.
  apply (regs_trans _ z); [apply (H a); [left; reflexivity|exact Ez]|apply IH; [|exact E]]. intros b u v I. apply H. right. exact I.
Qed.
Lemma regs_build a r ok x y o : coreA x -> build_conn a r ok x = (y, o) -> regs x y.
Proof.
  intros A. unfold build_conn. destruct (negb (x_run x)); [intros E; inversion E; apply regs_refl|]. destruct (x_addr x a) as [n|] eqn:Ea; [intros E; inversion E; apply regs_refl|].
  destruct (r || ok); [|intros E; inversion E; apply regs_refl]. intros E. inversion E; subst. clear E. intros R m q Em. cbn in Em |- *. apply upd_conn_cases in Em. destruct Em as [(-> & ->) | (N & Em)].
  - cbn. rewrite Z.eqb_refl. reflexivity.
  - destruct (Z.eqb_spec (n_addr q) a) as [Eq | Na]; [|apply R, Em]. pose proof (R m q Em). congruence.
Qed.
Lemma regs_create_one n i x y : create_one n i x = Some y -> regs x y.
Proof.
  unfold create_one. destruct (x_conns x n) as [k|] eqn:Ek; [|discriminate].
  assert (H : forall p c s, regs x (set_conn n (Some (n_with_lists p c s k)) x)) by (intros p c s; eapply (regs_conn x _ n k); [reflexivity|reflexivity|exact Ek|reflexivity]).
  destruct (x_chans x i) as [c|]; [|intros E; inversion E; apply H]. destruct (c_state c); try (intros E; inversion E; apply H). destruct (n_bev k); [|discriminate]. intros E. inversion E; subst.
  eapply (regs_conn x _ n k); [reflexivity|reflexivity|exact Ek|reflexivity].
Qed.
Lemma regs_create_channels n x y : create_channels n x = Some y -> regs x y.
Proof.
  unfold create_channels. destruct (x_conns x n) as [k|]; [|discriminate]. destruct (n_ready k); [|intros E; inversion E; apply regs_refl]. apply regs_each. intros i u v _. apply regs_create_one.
Qed.
Lemma regs_attach i n x y : attach i n x = Some y -> regs x y.
Proof.
  unfold attach. destruct (x_chans x i) as [c|]; [|discriminate]. destruct (x_conns x n) as [k|] eqn:Ek; [|discriminate]. intros E. eapply regs_trans; [|apply (regs_create_channels _ _ _ E)].
  eapply (regs_conn x _ n k); [reflexivity|reflexivity|exact Ek|reflexivity].
Qed.
Lemma regs_create_operations i x y : create_operations i x = Some y -> regs x y.
Proof.
  unfold create_operations. destruct (x_chans x i) as [c|]; [|discriminate]. destruct (c_state c); try (intros E; inversion E; apply regs_refl). destruct (filter _ _); [intros E; inversion E; apply regs_same; reflexivity|].
  destruct (c_conn c) as [m|]; [|discriminate]. destruct (x_conns x m) as [k|] eqn:Ek; [|discriminate]. destruct (n_bev k); [|discriminate]. intros E. inversion E; subst. eapply (regs_conn x _ m k); [reflexivity|reflexivity|exact Ek|reflexivity].
Qed.
Lemma regs_disc again i c x : regs x (disc again i c (conn_of x c) x).
Proof.
  unfold conn_of. destruct (c_conn c) as [n|]; [destruct (x_conns x n) as [k|] eqn:Ek|]; cbn [option_map]; [|apply regs_same; reflexivity|apply regs_same; reflexivity].
  apply (regs_conn x _ n k (left_ i c k)); [reflexivity|reflexivity|exact Ek|]. unfold left_, leave. destruct (c_state c); reflexivity.
Qed.
Lemma regs_disconnect h again i c x y : fine h x -> x_chans x i = Some c -> disconnect true again i x = Some y -> regs x y.
Proof.
  intros G Ec E. rewrite (disconnect_eq true again i c x (gA _ _ _ _ _ G) Ec) in E. cbn [negb] in E. pose proof (regs_disc again i c x) as D. pose proof (disc_good h again None i c x G Ec) as G1. set (u := disc again i c (conn_of x c) x) in *.
  apply (regs_trans _ u _ D). destruct (c_server c) as [a|]; [|inversion E; apply regs_same; reflexivity]. destruct (build_conn a true true u) as (v, o) eqn:Eb. pose proof (regs_build _ _ _ _ _ _ (gA _ _ _ _ _ G1) Eb) as B.
  apply (regs_trans _ v _ B). destruct o as [n|]; [apply (regs_attach _ _ _ _ E)|inversion E; apply regs_refl].
Qed.
Lemma regs_free_chan h i x y : fine h x -> free_chan i x = Some y -> regs x y.
Proof.
  intros G. unfold free_chan. destruct (x_chans x i) as [c|] eqn:Ec; [|intros E; inversion E; apply regs_refl]. destruct (held x i c); [intros E; inversion E; apply regs_refl|].
  rewrite (disconnect_eq false (fun _ => false) i c x (gA _ _ _ _ _ G) Ec). cbn [negb option_map]. intros E. inversion E; subst. apply (regs_trans _ _ _ (regs_disc (fun _ => false) i c x)), regs_same; reflexivity.
Qed.
Lemma regs_free_conn h n x y : fine h x -> free_conn n x = Some y -> regs x y.
Proof.
  intros G. unfold free_conn. destruct (x_conns x n) as [k|] eqn:Ek; [|intros E; inversion E; apply regs_refl]. destruct (used x n) eqn:U; [intros E; inversion E; apply regs_refl|].
  pose proof (unused_listed h n k x G Ek U) as L. unfold cleanup. rewrite Ek. assert (Ln : listed k = []) by (destruct (listed k) as [|a l]; [reflexivity|exfalso; apply (L a); left; reflexivity]). rewrite Ln. cbn [filter each ChanModel.bind].
  cbn [x_conns set_conn]. rewrite upd_same. cbn [n_ops n_with_tcp]. destruct (n_ops k); [|intros E; cbn in E; discriminate E]. cbn [option_map]. intros E. inversion E; subst. clear E. intros R m q Em. cbn in Em |- *. unfold upd in Em.
  destruct (Nat.eqb_spec m n) as [-> | Nm]; [discriminate|]. destruct (Z.eqb_spec (n_addr q) (n_addr k)) as [Ea | _]; [|apply R, Em]. pose proof (R m q Em). pose proof (R n k Ek). congruence.
Qed.
Lemma each_regs_good {A} h (f : A -> ctx -> option ctx) : (forall a x, fine h x -> exists x', f a x = Some x' /\ fine h x' /\ kept x x') ->
  (forall a x y, fine h x -> f a x = Some y -> regs x y) -> forall l x y, fine h x -> each f l x = Some y -> regs x y.
Proof.
  intros Hg Hk. induction l as [|a l IH]; intros x y G E; cbn [each] in E; [inversion E; apply regs_refl|].
  destruct (Hg a x G) as (z & Ez & Gz & _). rewrite Ez in E. cbn [ChanModel.bind] in E. eapply regs_trans; [apply (Hk a _ _ G Ez)|apply (IH _ _ Gz E)].
Qed.
Lemma regs_collect h x y : fine h x -> collect x = Some y -> regs x y.
Proof.
  intros G. unfold collect. destruct (each_good h (fun _ => True) free_chan (fun i => free_chan_good h i) (seq 0 (x_nc x)) x G) as (z & Ez & Gz & _). unfold ChanModel.bind. rewrite Ez. intros E.
  eapply regs_trans; [apply (each_regs_good h free_chan (fun i => free_chan_good h i) (fun i => regs_free_chan h i) _ _ _ G Ez)|].
  apply (each_regs_good h free_conn (fun i => free_conn_good h i) (fun i => regs_free_conn h i) _ _ _ Gz E).
Qed.
Lemma regs_build_chan h name server ok x y o : fine h x -> build_chan name server ok x = Some (y, o) -> regs x y.
Proof.
  intros G. unfold build_chan. destruct (negb (x_run x)); [intros E; inversion E; apply regs_refl|]. destruct (find_name _ _); [intros E; inversion E; apply regs_refl|]. fold (newchan name server x).
  destruct server as [a|]; [|intros E; inversion E; apply regs_same; reflexivity]. destruct (build_conn a false ok (newchan name (Some a) x)) as (u, o') eqn:Eb.
  assert (B : regs x u).
  { clear o y. unfold build_conn in Eb. destruct (negb (x_run (newchan name (Some a) x))); [inversion Eb; apply regs_same; reflexivity|]. destruct (x_addr (newchan name (Some a) x) a) as [n|] eqn:Ea; [inversion Eb; apply regs_same; reflexivity|].
    destruct (false || ok); [|inversion Eb; apply regs_same; reflexivity]. inversion Eb; subst. clear Eb. intros R m q Em. cbn in Em |- *. apply upd_conn_cases in Em. destruct Em as [(-> & ->) | (N & Em)]; [cbn; rewrite Z.eqb_refl; reflexivity|].
    destruct (Z.eqb_spec (n_addr q) a) as [Eq | Na]; [|apply R, Em]. pose proof (R m q Em). cbn in Ea. congruence. }
  destruct o' as [n|]; [|intros E; inversion E; subst; exact B]. destruct (attach (x_nc x) n u) as [v|] eqn:Ev; [|discriminate]. cbn [ChanModel.bind]. intros E. inversion E; subst. apply (regs_trans _ u _ B), (regs_attach _ _ _ _ Ev).
Qed.
Lemma regs_leave_op i op x y : leave_op i op x = Some y -> regs x y.
Proof.
  unfold leave_op. destruct (x_chans x i) as [c|]; [|intros E; inversion E; apply regs_refl]. destruct (is_in op (c_ops c)); [|intros E; inversion E; apply regs_refl]. destruct (c_conn c) as [n|]; [|discriminate].
  destruct (x_conns x n) as [k|] eqn:Ek; [|discriminate]. intros E. inversion E; subst. eapply (regs_conn x _ n k); [reflexivity|reflexivity|exact Ek|reflexivity].
Qed.
Lemma regs_clean h name a again l : forall x y, fine h x -> NoDup (map fst l) -> (forall e, In e l -> In e (x_names x)) ->
  each (fun e x => ChanModel.bind (clean_one name a again e x) collect) l x = Some y -> regs x y.
Proof.
  induction l as [|(key, i) l IH]; intros x y G Nd Hl E.
  { cbn [each] in E. inversion E. apply regs_refl. }
  destruct (clean_loop h name a again [(key, i)] x G) as (z & Ez & Gz); [cbn; constructor; [intros []|constructor]|intros e [<- | []]; apply Hl; left; reflexivity|].
  cbn [each ChanModel.bind] in E, Ez. destruct (clean_one name a again (key, i) x) as [u|] eqn:Eu; [|discriminate]. cbn [ChanModel.bind] in E, Ez. destruct (collect u) as [v|] eqn:Ev; [|discriminate]. cbn [ChanModel.bind] in E, Ez.
  assert (Hv : v = z) by (inversion Ez; reflexivity). clear Ez. subst v. cbn in Nd. inversion Nd as [|? ? Nk Nd']; subst.
  assert (K : regs x u /\ fine h u /\ (forall p, In p (x_names x) -> fst p <> key -> In p (x_names u))).
  { unfold clean_one in Eu. destruct (negb _) eqn:Em; [inversion Eu; subst; split; [apply regs_refl|split; [exact G|auto]]|].
    destruct (d_in _ (gD _ _ _ _ _ G) key i (Hl _ (or_introl eq_refl))) as (c & Ec & Hk). rewrite Ec in Eu.
    set (names := filter (fun p => negb (key_eqb key (fst p))) (x_names x)) in *.
    assert (G1 : fine h (set_names names x)). { apply (good_prim h None None None x); [exact G|]. apply P_names; [intros p I; apply filter_In in I; apply I|]. apply nodup_filter, (d_nd _ (gD _ _ _ _ _ G)). }
    assert (K1 : forall p, In p (x_names x) -> fst p <> key -> In p names).
    { intros p I N. apply filter_In. split; [exact I|]. destruct (key_eqb key (fst p)) eqn:E'; [|reflexivity]. apply key_eqb_eq in E'. congruence. }
    assert (Kn : regs x (set_names names x)) by (apply regs_same; reflexivity).
    destruct a.
    - destruct (c_refs c); [destruct (c_watch c)|]; inversion Eu; subst; (split; [first [exact Kn | apply regs_refl]|]; split; [assumption|auto]).
    - inversion Eu; subst. auto.
    - destruct (disconnect_good h again None i c (set_names names x) G1 Ec) as (u' & c' & Eu' & Gu & Fu & _). rewrite Eu' in Eu. inversion Eu; subst u'.
      split; [eapply regs_trans; [exact Kn|apply (regs_disconnect h again i c _ _ G1 Ec Eu')]|]. split; [exact Gu|]. rewrite (r_names _ _ _ Fu). exact K1. }
  destruct K as (K & Gu & Ku). destruct (collect_good h u Gu) as (z' & Ez' & _ & Kz). assert (z' = z) by congruence. subst z'.
  eapply regs_trans; [exact K|]. eapply regs_trans; [apply (regs_collect h _ _ Gu Ev)|]. apply IH; auto.
  intros e I. rewrite (k_names _ _ Kz). apply Ku; [apply Hl; right; exact I|]. intros E'. apply Nk. rewrite <- E'. apply in_map, I.
Qed.
Lemma regs_ns h ok after : forall before x y, fine h x -> x_ns x = before ++ after -> ns_check ok before after x = Some y -> regs x y.
Proof.
  induction after as [|(a, o) l IH]; intros before x y G Hn E; cbn [ns_check] in E; [inversion E; apply regs_refl|].
  destruct (match o with Some n => match x_conns x n with Some k => match n_state k with Disconnected => false | _ => true end | None => false end | None => false end).
  - apply (IH (before ++ [(a, o)]) x y G); [rewrite Hn, <- app_assoc; reflexivity|exact E].
  - destruct (build_conn_good h None None None a false (ok a) x G) as (z & o' & Eb & G2 & F2 & Hc & Hs2 & Hnn & Hno & _ & Hk). rewrite Eb in E. pose proof (regs_build _ _ _ _ _ _ (gA _ _ _ _ _ G) Eb) as B. destruct o' as [n|]; [|inversion E; subst; exact B].
    destruct (Hnn n eq_refl) as (k & Ek & Ea & Er). rewrite Ek in E.
    assert (G3 : fine h (set_conn n (Some (n_with_ns k)) z)) by (apply (good_prim h None None None z); [exact G2|apply P_nsconn, Ek]).
    assert (G4 : fine h (set_ns (before ++ (a, Some n) :: l) (set_conn n (Some (n_with_ns k)) z))).
    { eapply good_prim; [exact G3|]. apply P_ns. intros b m I. cbn. unfold upd. destruct (Nat.eqb_spec m n); [discriminate|].
      assert (I' : In (b, Some m) (x_ns x)). { rewrite Hn. apply in_app_iff in I. apply in_app_iff. destruct I as [I | [I | I]]; [left; exact I|inversion I; congruence|right; right; exact I]. }
      destruct (a_ns _ (gA _ _ _ _ _ G) _ _ I') as (q & Eq). rewrite (Hk _ _ Eq). discriminate. }
    destruct (collect_good h _ G4) as (u & Eu & Gu & Ku). rewrite Eu in E. cbn [ChanModel.bind] in E.
    apply (regs_trans _ z _ B). eapply regs_trans; [|eapply regs_trans; [apply (regs_collect h _ _ G4 Eu)|]].
    + eapply (regs_conn z _ n k); [reflexivity|reflexivity|exact Ek|reflexivity].
    + apply (IH (before ++ [(a, Some n)]) u y Gu); [|exact E]. rewrite (k_ns _ _ Ku). cbn. rewrite <- app_assoc. reflexivity.
Qed.
Lemma regs_handle h e x y : fine h x -> handle e x = Some y -> match e with ELost _ _ _ | EClose _ => False | _ => True end -> regs x y.
Proof.
  intros G E He. destruct e as [name server ok|i op|i op|name server ok|i w|i a ok|i|n|n|n v again|n i sid ok|n sid again|n ok|name a again|ok|again]; try contradiction; cbn [handle] in E.
  - unfold exec in E. destruct (build_chan name server ok x) as [(u, o)|] eqn:Eb; [|discriminate]. cbn [ChanModel.bind] in E. apply (regs_build_chan h) in Eb; [|exact G]. destruct o as [i|]; [|inversion E; subst; exact Eb].
    destruct (x_chans u i); [|discriminate]. apply (regs_trans _ u _ Eb). eapply regs_trans; [|apply (regs_create_operations _ _ _ E)]. apply regs_same; reflexivity.
  - unfold drop_op in E. destruct (leave_op i op x) as [u|] eqn:Eu; [|discriminate]. cbn [ChanModel.bind] in E. apply regs_leave_op in Eu. apply (regs_trans _ u _ Eu). destruct (x_chans u i); inversion E; subst; [apply regs_same; reflexivity|apply regs_refl].
  - unfold end_op in E. destruct (x_chans x i) as [c|]; [|inversion E; apply regs_refl]. destruct (is_in op (c_ops c)); [|inversion E; apply regs_refl]. destruct (leave_op i op x) as [u|] eqn:Eu; [|discriminate]. cbn [ChanModel.bind] in E. apply regs_leave_op in Eu. inversion E; subst. exact Eu.
  - unfold watch in E. destruct (build_chan name server ok x) as [(u, o)|] eqn:Eb; [|discriminate]. cbn [ChanModel.bind] in E. apply (regs_build_chan h) in Eb; [|exact G]. destruct o as [i|]; [|inversion E; subst; exact Eb].
    destruct (x_chans u i); [|discriminate]. inversion E; subst. exact Eb.
  - destruct (x_chans x i); inversion E; [apply regs_same; reflexivity|apply regs_refl].
  - unfold found in E. destruct (x_chans x i) as [c|]; [|inversion E; apply regs_refl]. destruct (c_state c); try (inversion E; apply regs_refl). destruct (build_conn a false ok x) as (u, o) eqn:Eb. apply regs_build in Eb; [|apply (gA _ _ _ _ _ G)].
    destruct o as [n|]; [apply (regs_trans _ u _ Eb), (regs_attach _ _ _ _ E)|inversion E; subst; exact Eb].
  - destruct (x_chans x i) as [c|]; [destruct (c_state c)|]; inversion E; first [apply regs_refl | apply regs_same; reflexivity].
  - unfold tcp_up in E. destruct (x_conns x n) as [k|] eqn:Ek; [|inversion E; apply regs_refl]. destruct (n_state k); try (inversion E; apply regs_refl). destruct (n_bev k); inversion E; [|apply regs_refl]. eapply (regs_conn x _ n k); [reflexivity|reflexivity|exact Ek|reflexivity].
  - unfold validated in E. destruct (x_conns x n) as [k|] eqn:Ek; [|inversion E; apply regs_refl]. destruct (open k); [|inversion E; apply regs_refl]. eapply regs_trans; [|apply (regs_create_channels _ _ _ E)]. eapply (regs_conn x _ n k); [reflexivity|reflexivity|exact Ek|reflexivity].
  - unfold created in E. destruct (x_conns x n) as [k|] eqn:Ek; [|inversion E; apply regs_refl]. destruct (open k); [|inversion E; apply regs_refl].
    destruct (is_in i (n_creating k)); [|inversion E; apply regs_same; reflexivity]. destruct (x_chans x i) as [c|]; [|inversion E; eapply (regs_conn x _ n k); [reflexivity|reflexivity|exact Ek|reflexivity]].
    destruct (negb ok); [inversion E; eapply (regs_conn x _ n k); [reflexivity|reflexivity|exact Ek|reflexivity]|].
    destruct (create_operations _ _) as [u|] eqn:Eu; [|discriminate]. cbn [ChanModel.bind] in E. apply regs_create_operations in Eu. destruct (x_chans u i); [|discriminate]. inversion E; subst. clear E.
    eapply regs_trans; [|exact Eu]. eapply (regs_conn x _ n k); [reflexivity|reflexivity|exact Ek|reflexivity].
  - unfold destroyed in E. destruct (x_conns x n) as [k|]; [|inversion E; apply regs_refl]. destruct (open k); [|inversion E; apply regs_refl]. destruct (find_sid sid (n_bysid k)) as [i|]; [|inversion E; apply regs_refl].
    destruct (x_chans x i) as [c|] eqn:Ec; [|inversion E; apply regs_refl]. apply (regs_disconnect h again i c x y G Ec E).
  - unfold tick in E. destruct (x_conns x n) as [k|] eqn:Ek; [|inversion E; apply regs_refl]. destruct (n_timer k); [|inversion E; apply regs_refl]. destruct (n_state k); [destruct ok| | |]; inversion E; try (apply regs_same; reflexivity); (eapply (regs_conn x _ n k); [reflexivity|reflexivity|exact Ek|reflexivity]).
  - unfold clean in E. apply (regs_clean h name a again (x_names x) x y G (d_nd _ (gD _ _ _ _ _ G))); auto.
  - apply (regs_ns h ok (x_ns x) [] x y G eq_refl E).
Qed.
Lemma regs_run es : forall x y, fine false x -> honest_run x es -> reg x -> run x es = Some y -> Forall (fun e => match e with ELost _ _ _ | EClose _ => False | _ => True end) es -> reg y.
Proof.
  induction es as [|e es IH]; intros x y G H R E Hd; cbn [run] in E; [inversion E; subst; exact R|]. destruct (step x e) as [z|] eqn:Ez; [|discriminate]. cbn [ChanModel.bind] in E.
  destruct H as (H1 & H2). inversion Hd; subst. destruct (step_good false e x G H1 ltac:(discriminate)) as (z' & Ez' & Gz). assert (z' = z) by congruence. subst z'.
  apply (IH z y Gz (H2 z Ez)); auto. destruct (handle_good false e x G H1 ltac:(discriminate)) as (v & Ev & Gv). unfold step in Ez. rewrite Ev in Ez. cbn [ChanModel.bind] in Ez.
  apply (regs_collect false v z Gv Ez), (regs_handle false e x v G Ev); assumption.
Qed.
