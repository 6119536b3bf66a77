(** Channels become connected only by the reply of a server. *)
From Coq Require Import ZArith List Bool Arith Lia.
From Verif Require Import Base BaseProofs ChanModel ChanSpec ChanProofs ChanProofs2 ChanProofs3 ChanProofs4 ChanProofs5 ChanProofs6 ChanProofs7 ChanProofs8 ChanProofs9 ChanProofs10 ChanProofs11.
Import ListNotations.

Definition noact (x y : ctx) : Prop := forall i c', x_chans y i = Some c' -> c_state c' = Active -> exists c, x_chans x i = Some c /\ c_state c = Active /\ c_conn c = c_conn c'.
Lemma noact_refl x : noact x x.
Proof. intros i c E A. eauto. Qed.
Lemma noact_trans x y z : noact x y -> noact y z -> noact x z.
Proof. intros H1 H2 i c E A. destruct (H2 i c E A) as (d & E1 & A1 & N1), (H1 i d E1 A1) as (f & E2 & A2 & N2). exists f. split; [exact E2|]. split; congruence. Qed.
Lemma noact_same x y : x_chans y = x_chans x -> noact x y.
Proof. intros H i c E A. rewrite H in E. eauto. Qed.
Lemma noact_chan x y i c : (forall j, j <> i -> x_chans y j = x_chans x j) -> x_chans y i = Some c -> c_state c <> Active -> noact x y.
Proof. intros H Ec N j d E A. destruct (Nat.eq_dec j i) as [-> | Nj]; [congruence|]. rewrite (H _ Nj) in E. eauto. Qed.
Lemma noact_each {A} (f : A -> ctx -> option ctx) l : (forall a x y, f a x = Some y -> noact x y) -> forall x y, each f l x = Some y -> noact x y.
Proof.
  intros H. induction l as [|a l IH]; intros x y E; cbn [each] in E; [inversion E; apply noact_refl|]. destruct (f a x) as [z|] eqn:Ez; [|discriminate]. cbn [ChanModel.bind] in E.
  apply (noact_trans _ z); [apply (H _ _ _ Ez)|apply (IH _ _ E)].
Qed.
Lemma noact_create_channels n x y : create_channels n x = Some y -> noact x y.
Proof.
  unfold create_channels. destruct (x_conns x n) as [k|]; [|discriminate]. destruct (n_ready k); [|intros E; inversion E; apply noact_refl]. apply noact_each. clear. intros i x y E. unfold create_one in E.
  destruct (x_conns x n) as [k|]; [|discriminate]. destruct (x_chans x i) as [c|] eqn:Ec; [|inversion E; apply noact_same; reflexivity].
  destruct (c_state c); try destruct (n_bev k); inversion E; subst; try (apply noact_same; reflexivity).
  apply (noact_chan x _ i (c_with_state Creating c)); [intros j N; cbn; apply upd_other, N|cbn; apply upd_same|discriminate].
Qed.
Lemma noact_attach i n x y : attach i n x = Some y -> noact x y.
Proof.
  unfold attach. destruct (x_chans x i) as [c|] eqn:Ec; [|discriminate]. destruct (x_conns x n) as [k|]; [|discriminate]. intros E. eapply noact_trans; [|apply (noact_create_channels _ _ _ E)].
  apply (noact_chan x _ i (c_with_state Connecting (c_with_conn (Some n) c))); [intros j N; cbn; apply upd_other, N|cbn; apply upd_same|discriminate].
Qed.
Lemma noact_disconnect2 again i x y : disconnect true again i x = Some y -> noact x y /\ forall c', x_chans y i = Some c' -> c_state c' <> Active.
Proof.
  unfold disconnect. destruct (x_chans x i) as [c|] eqn:Ec; [|discriminate]. set (k := match c_conn c with Some n => option_map (pair n) (x_conns x n) | None => None end). cbn [negb]. intros E.
  assert (E' : match c_server c with
               | None => Some (set_search (x_search (disc again i c k x) ++ [i]) (disc again i c k x))
               | Some a => match build_conn a true true (disc again i c k x) with (x3, Some n) => attach i n x3 | (x3, None) => Some x3 end
               end = Some y) by (destruct k as [(n, k')|]; destruct (c_state c) eqn:Es; try discriminate; (rewrite <- E; unfold disc, sends, downs, losts, gone, alive, left_; rewrite ?Es; reflexivity)).
  clear E. pose proof (disc_chan again i c k x) as Ei. set (u := disc again i c k x) in *.
  assert (N0 : noact x u). { apply (noact_chan x u i (gone again c)); [|exact Ei|discriminate]. intros j N. unfold u, disc. cbn. rewrite upd_other by exact N. destruct k as [(n, k')|]; reflexivity. }
  assert (N1 : noact u y); [|split; [apply (noact_trans _ u _ N0 N1)|]; intros c' Ec' A'; destruct (N1 i c' Ec' A') as (d & Ed & Ad & _); rewrite Ei in Ed; inversion Ed; subst; discriminate].
  destruct (c_server c) as [a|]; [|inversion E'; apply noact_same; reflexivity]. destruct (build_conn a true true u) as (v, o) eqn:Eb.
  assert (Hv : x_chans v = x_chans u). { unfold build_conn in Eb. destruct (negb _); [inversion Eb; reflexivity|]. destruct (x_addr u a); inversion Eb; reflexivity. }
  destruct o as [n|]; [|inversion E'; subst; apply noact_same, Hv]. eapply noact_trans; [apply (noact_same _ _ Hv)|apply (noact_attach _ _ _ _ E')].
Qed.
Lemma noact_disconnect again i x y : disconnect true again i x = Some y -> noact x y.
Proof. intros E. apply (noact_disconnect2 again i x y E). Qed.
Lemma noact_cleanup again n x y : cleanup again n x = Some y -> noact x y.
Proof.
  unfold cleanup. destruct (x_conns x n) as [k|]; [|discriminate]. destruct (each _ _ _) as [z|] eqn:Ez; [|discriminate]. cbn [ChanModel.bind]. intros E.
  apply (noact_trans _ z).
  - eapply noact_trans; [|apply (noact_each _ _ (fun a u v => noact_disconnect again a u v) _ _ Ez)]. apply noact_same. reflexivity.
  - destruct (x_conns z n) as [k2|]; [|discriminate]. destruct (n_ops k2); [|discriminate]. inversion E. apply noact_same. reflexivity.
Qed.
Lemma noact_lost again v n x y : lost again v n x = Some y -> noact x y.
Proof.
  unfold lost. destruct (x_conns x n) as [k|]; [|intros E; inversion E; apply noact_refl]. destruct (n_bev k); [|intros E; inversion E; apply noact_refl]. intros E.
  eapply noact_trans; [|apply (noact_cleanup _ _ _ _ E)]. apply noact_same. reflexivity.
Qed.
Lemma noact_kept x y : kept x y -> noact x y.
Proof. intros K i c E A. exists c. split; [apply (k_less _ _ K _ _ E)|auto]. Qed.
Lemma noact_ends x y i : noact x y -> (forall c, x_chans x i = Some c -> c_state c <> Active) -> forall c, x_chans y i = Some c -> c_state c <> Active.
Proof. intros N H c E A. destruct (N i c E A) as (d & Ed & Ad & _). apply (H d Ed Ad). Qed.
Lemma clean_ends h name again l : forall x y, fine h x -> NoDup (map fst l) -> (forall e, In e l -> In e (x_names x)) ->
  each (fun e x => ChanModel.bind (clean_one name Disconnect again e x) collect) l x = Some y ->
  noact x y /\ forall key i, In (key, i) l -> (name = [] \/ fst key = name) -> forall c, x_chans y i = Some c -> c_state c <> Active.
Proof.
  induction l as [|(key0, i0) l IH]; intros x y G Nd Hl E.
  { cbn [each] in E. inversion E; subst. split; [apply noact_refl|]. intros key i []. }
  cbn [each] in E. cbn in Nd. inversion Nd as [|? ? Nk Nd']; subst.
  destruct (clean_one name Disconnect again (key0, i0) x) as [v|] eqn:Ev; [|discriminate]. cbn [ChanModel.bind] in E. destruct (collect v) as [w|] eqn:Ew; [|discriminate]. cbn [ChanModel.bind] in E.
  assert (H : fine h v /\ noact x v /\ ((name = [] \/ fst key0 = name) -> forall c, x_chans v i0 = Some c -> c_state c <> Active) /\ (forall p, In p (x_names x) -> fst p <> key0 -> In p (x_names v))).
  { unfold clean_one in Ev. destruct (negb _) eqn:Em.
    - inversion Ev; subst. split; [exact G|]. split; [apply noact_refl|]. split; [|auto]. intros H. exfalso. apply negb_true_iff in Em. destruct name as [|a nm]; [discriminate|]. destruct H as [H | H]; [discriminate|].
      rewrite H in Em. rewrite (proj2 (str_eqb_eq _ _) eq_refl) in Em. discriminate.
    - destruct (d_in _ (gD _ _ _ _ _ G) key0 i0 (Hl _ (or_introl eq_refl))) as (c & Ec & _). rewrite Ec in Ev. set (names := filter (fun p => negb (key_eqb key0 (fst p))) (x_names x)) in *.
      assert (G1 : fine h (set_names names x)). { apply (good_prim h None None None x); [exact G|]. apply P_names; [intros p J; apply filter_In in J; apply J|]. apply nodup_filter, (d_nd _ (gD _ _ _ _ _ G)). }
      destruct (disconnect_good h again None i0 c (set_names names x) G1 Ec) as (v' & c' & Ev' & Gv & Fv & _). assert (v' = v) by congruence. subst v'.
      destruct (noact_disconnect2 _ _ _ _ Ev) as (N1 & N2). split; [exact Gv|]. split; [apply (noact_trans _ (set_names names x)); [apply noact_same; reflexivity|exact N1]|]. split; [intros _; exact N2|].
      rewrite (r_names _ _ _ Fv). intros p J N. cbn. apply filter_In. split; [exact J|]. destruct (key_eqb key0 (fst p)) eqn:E'; [|reflexivity]. apply key_eqb_eq in E'. congruence. }
  destruct H as (Gv & N1 & N2 & Kn). destruct (collect_good h v Gv) as (w' & Ew' & Gw & Kw). assert (w' = w) by congruence. subst w'.
  destruct (IH w y Gw Nd') as (M1 & M2); [|exact E|].
  { intros e J. rewrite (k_names _ _ Kw). apply Kn; [apply Hl; right; exact J|]. intros Ee. apply Nk. rewrite <- Ee. apply in_map, J. }
  split; [apply (noact_trans _ v _ N1), (noact_trans _ w _ (noact_kept _ _ Kw) M1)|]. intros key i [J | J] Hm.
  - inversion J; subst. apply (noact_ends v y i (noact_trans _ w _ (noact_kept _ _ Kw) M1)), N2, Hm.
  - apply (M2 key i J Hm).
Qed.
(** ** What is told to an operation whose channel is no longer connected *)
Lemma told_off h e x y i c c' o : fine h x -> honest x e -> (h = true -> no_failure e) -> step x e = Some y -> fine h y -> ~ drops e o -> (forall j, e <> EEnd j o) ->
  x_chans x i = Some c -> In o (c_refs c) -> life_of o (x_out x) = Some Running -> x_chans y i = Some c' -> c_state c' <> Active ->
  exists b, retries e o = Some b /\ life_of o (x_out y) = Some (if b then Waiting else Ended).
Proof.
  intros G Hh Hn E Gy Nd Ne Ec I L Ec' Na. pose proof (step_keeps h e x y G Hh Hn E) as K. destruct (g_op _ _ _ _ _ _ K i c o Ec I Nd) as (d & Ed & Id & _). assert (d = c') by congruence. subst d.
  destruct (g_out _ _ _ _ _ _ K) as (l & El & T). rewrite Forall_forall in T.
  assert (D : forall p, existsb p l = true \/ (forall f, In f l -> p f = false)).
  { intros p. destruct (existsb p l) eqn:Ex; [left; reflexivity|right]. intros f If. destruct (p f) eqn:Ep; [|reflexivity]. rewrite <- Ex. symmetry. apply existsb_exists. eauto. }
  destruct (b_life _ _ (gB _ _ _ _ _ Gy) i c' o Ec' Id) as [(J & _) | [(_ & _ & W) | (_ & _ & W)]].
  - exfalso. apply Na, (b_act _ _ (gB _ _ _ _ _ Gy) i c' Ec'). intros Z. rewrite Z in J. destruct J.
  - exists true. split; [|exact W]. destruct (D (fun f => match f with OLost o' => Nat.eqb o o' | _ => false end)) as [X | X].
    + apply existsb_exists in X. destruct X as (f & If & Hf). destruct f; try discriminate. apply Nat.eqb_eq in Hf. subst op. specialize (T _ If). cbn in T. destruct e; try destruct a; cbn in *; try contradiction; congruence.
    + exfalso. rewrite El, life_app, L in W. assert (Some Running = Some Waiting); [|discriminate]. apply (live_from o l _ _ W); [|reflexivity]. intros f If. specialize (X f If). destruct f; auto. apply Nat.eqb_neq in X. exact X.
  - exists false. split; [|exact W]. destruct (D (fun f => match f with OFail o' | OEnd o' => Nat.eqb o o' | _ => false end)) as [X | X].
    + apply existsb_exists in X. destruct X as (f & If & Hf). destruct f; try discriminate; apply Nat.eqb_eq in Hf; subst op; specialize (T _ If); cbn in T; destruct e; try destruct a; cbn in *; try contradiction; try congruence.
    + exfalso. rewrite El, life_app, L in W. assert (Some Running = Some Ended); [|discriminate]. apply (live_to o l _ _ W); [|reflexivity]. intros f If. specialize (X f If). destruct f; auto; apply Nat.eqb_neq in X; exact X.
Qed.
Lemma find_sid_nd s l i : NoDup (map fst l) -> In (s, i) l -> find_sid s l = Some i.
Proof.
  unfold find_sid. induction l as [|(d, j) l IH]; intros Nd I; [destruct I|]. cbn in Nd. inversion Nd as [|? ? N1 N2]; subst. cbn [find fst]. destruct (Z.eqb_spec s d) as [-> | Ne].
  - cbn. destruct I as [I | I]; [congruence|]. exfalso. apply N1. apply (in_map fst) in I. exact I.
  - apply IH; [exact N2|]. destruct I as [I | I]; [congruence|exact I].
Qed.
Lemma destroyed_detail h again n k sid x i c : fine h x -> x_conns x n = Some k -> n_bev k = true -> n_state k = Connected -> x_chans x i = Some c -> c_state c = Active -> c_conn c = Some n -> c_sid c = sid ->
  exists y, step x (EDestroyed n sid again) = Some y /\ fine h y /\ forall c', x_chans y i = Some c' -> c_state c' <> Active.
Proof.
  intros G Ek Hb Hs Ec Es En Ed. pose proof (gA _ _ _ _ _ G) as A. destruct (step_good h (EDestroyed n sid again) x G Logic.I ltac:(intros; exact Logic.I)) as (y & Ey & Gy). exists y. split; [exact Ey|]. split; [exact Gy|].
  unfold step in Ey. cbn [handle] in Ey. unfold destroyed, open in Ey. rewrite Ek, Hb, Hs in Ey. cbn [andb] in Ey.
  rewrite (find_sid_nd sid (n_bysid k) i (a_sids _ A _ _ Ek)), Ec in Ey by (apply (a_sid _ A _ _ _ _ Ek); unfold place; rewrite Ec, Es, En, Ed; reflexivity).
  destruct (disconnect_good h again None i c x G Ec) as (v & c1 & Ev & Gv & _). rewrite Ev in Ey. cbn [ChanModel.bind] in Ey. destruct (noact_disconnect2 _ _ _ _ Ev) as (N1 & N2).
  destruct (collect_good h v Gv) as (z & Ez & _ & Kz). assert (z = y) by congruence. subst z. apply (noact_ends v y i (noact_kept _ _ Kz) N2).
Qed.
Lemma disconnect_detail h name again x key i : fine h x -> In (key, i) (x_names x) -> (name = [] \/ fst key = name) ->
  exists y, step x (EClean name Disconnect again) = Some y /\ fine h y /\ forall c', x_chans y i = Some c' -> c_state c' <> Active.
Proof.
  intros G I Hm. destruct (step_good h (EClean name Disconnect again) x G Logic.I ltac:(intros; exact Logic.I)) as (y & Ey & Gy). exists y. split; [exact Ey|]. split; [exact Gy|].
  unfold step in Ey. cbn [handle] in Ey. unfold clean in Ey. destruct (clean_loop h name Disconnect again (x_names x) x G (d_nd _ (gD _ _ _ _ _ G)) ltac:(auto)) as (v & Ev & Gv). rewrite Ev in Ey. cbn [ChanModel.bind] in Ey.
  destruct (clean_ends h name again (x_names x) x v G (d_nd _ (gD _ _ _ _ _ G)) ltac:(auto) Ev) as (_ & N2). destruct (collect_good h v Gv) as (z & Ez & _ & Kz). assert (z = y) by congruence. subst z.
  apply (noact_ends v y i (noact_kept _ _ Kz)). intros c0 E0. apply (N2 key i I Hm c0 E0).
Qed.
