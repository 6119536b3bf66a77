(** What no event takes away: operations and handles of the application, and what was told. *)
From Coq Require Import ZArith List Bool Arith Lia.
From Verif Require Import Base BaseProofs ChanModel ChanSpec ChanProofs ChanProofs2 ChanProofs3 ChanProofs4 ChanProofs5 ChanProofs6 ChanProofs7.
Import ListNotations.

Definition like (S X : nat -> Prop) (i : nat) (c c' : channel) : Prop :=
  c_name c' = c_name c /\ c_server c' = c_server c /\
  (~ S i -> c_state c = Active -> c_state c' = Active /\ c_sid c' = c_sid c /\ c_conn c' = c_conn c /\ forall o, In o (c_ops c) -> ~ X o -> In o (c_ops c')).
Lemma like_refl S X i c : like S X i c c.
Proof. split; [reflexivity|]. split; [reflexivity|]. auto. Qed.
Lemma like_trans S X i a b c : like S X i a b -> like S X i b c -> like S X i a c.
Proof.
  intros (A1 & A2 & A3) (B1 & B2 & B3). split; [congruence|]. split; [congruence|]. intros N E. destruct (A3 N E) as (E1 & E2 & E3 & E4), (B3 N E1) as (F1 & F2 & F3 & F4). split; [congruence|]. split; [congruence|]. split; [congruence|]. auto.
Qed.
(** What may be told to operations: of which kind, and to which *)
Definition tells (T : (nat -> Prop) * (nat -> Prop) * (nat -> Prop)) (e : out) : Prop :=
  match e with OLost o => fst (fst T) o | OFail o => snd (fst T) o | OEnd o => snd T o | _ => True end.
Lemma tells_other T e : match e with OLost _ | OFail _ | OEnd _ => False | _ => True end -> tells T e.
Proof. destruct e; cbn; tauto. Qed.
Definition tells_again (T : (nat -> Prop) * (nat -> Prop) * (nat -> Prop)) (again : nat -> bool) : Prop :=
  forall o, (again o = true -> fst (fst T) o) /\ (again o = false -> snd (fst T) o).
Definition longer (T : (nat -> Prop) * (nat -> Prop) * (nat -> Prop)) (x y : ctx) : Prop := exists l, x_out y = x_out x ++ l /\ Forall (tells T) l.
Lemma longer_same T x y : x_out y = x_out x -> longer T x y.
Proof. intros E. exists []. rewrite E, app_nil_r. split; [reflexivity|constructor]. Qed.
Lemma tells_disc T again i c k : tells_again T again -> Forall (tells T) (sends i c k ++ downs c ++ losts again c).
Proof.
  intros H. apply Forall_app. split; [|apply Forall_app; split].
  - unfold sends. destruct k as [(n, k)|]; [|constructor]. destruct (c_state c); try constructor; destruct (n_bev k); repeat constructor.
  - unfold downs. apply Forall_forall. intros e I. apply in_flat_map in I. destruct I as (w & _ & I). destruct (snd w); [destruct I as [<- | []]; exact Logic.I|destruct I].
  - unfold losts. apply Forall_forall. intros e I. apply in_map_iff in I. destruct I as (o & <- & _). destruct (again o) eqn:E; [apply (proj1 (H o) E)|apply (proj2 (H o) E)].
Qed.
Record keeps (D W S : nat -> Prop) (T : (nat -> Prop) * (nat -> Prop) * (nat -> Prop)) (x y : ctx) : Prop := {
  g_out : longer T x y;
  g_op : forall i c o, x_chans x i = Some c -> In o (c_refs c) -> ~ D o -> exists c', x_chans y i = Some c' /\ In o (c_refs c') /\ like S (fun o => D o \/ snd T o) i c c';
  g_w : forall i c w, x_chans x i = Some c -> In w (map fst (c_watch c)) -> ~ W w -> exists c', x_chans y i = Some c' /\ In w (map fst (c_watch c')) /\ like S (fun o => D o \/ snd T o) i c c'
}.
Section Keeps.
Variables D W S : nat -> Prop.
Variable T : (nat -> Prop) * (nat -> Prop) * (nat -> Prop).
Notation "x ~> y" := (keeps D W S T x y) (at level 70).
Lemma keeps_refl x : x ~> x.
Proof. constructor; [apply longer_same; reflexivity| |]; intros i c o Ec I _; exists c; (split; [exact Ec|]; split; [exact I|apply like_refl]). Qed.
Lemma keeps_trans x y z : x ~> y -> y ~> z -> x ~> z.
Proof.
  intros [(l & A1 & Pl) A2 A3] [(m & B1 & Pm) B2 B3]. constructor.
  - exists (l ++ m). rewrite B1, A1. split; [symmetry; apply app_assoc|apply Forall_app; auto].
  - intros i c o Ec I N. destruct (A2 _ _ _ Ec I N) as (c1 & E1 & I1 & L1), (B2 _ _ _ E1 I1 N) as (c2 & E2 & I2 & L2). exists c2. split; [exact E2|]. split; [exact I2|apply (like_trans _ _ _ _ _ _ L1 L2)].
  - intros i c o Ec I N. destruct (A3 _ _ _ Ec I N) as (c1 & E1 & I1 & L1), (B3 _ _ _ E1 I1 N) as (c2 & E2 & I2 & L2). exists c2. split; [exact E2|]. split; [exact I2|apply (like_trans _ _ _ _ _ _ L1 L2)].
Qed.
Lemma keeps_rest x y : x_chans y = x_chans x -> longer T x y -> x ~> y.
Proof. intros E H. constructor; [exact H| |]; intros i c o Ec I _; exists c; rewrite E; (split; [exact Ec|]; split; [exact I|apply like_refl]). Qed.
Lemma keeps_quiet x y : x_chans y = x_chans x -> x_out y = x_out x -> x ~> y.
Proof. intros E H. apply keeps_rest; [exact E|]. apply longer_same, H. Qed.
(** one channel changes *)
Lemma keeps_chan x y i c c' : x_chans x i = Some c -> x_chans y i = Some c' -> (forall j, j <> i -> x_chans y j = x_chans x j) -> longer T x y ->
  (forall o, In o (c_refs c) -> ~ D o -> In o (c_refs c')) -> (forall w, In w (map fst (c_watch c)) -> ~ W w -> In w (map fst (c_watch c'))) -> like S (fun o => D o \/ snd T o) i c c' -> x ~> y.
Proof.
  intros Ec Ec' Ho Hl Hr Hw L. constructor; [exact Hl| |]; intros j d o Ed I N.
  - destruct (Nat.eq_dec j i) as [-> | Nj]; [|exists d; rewrite (Ho _ Nj); split; [exact Ed|split; [exact I|apply like_refl]]]. rewrite Ec in Ed. inversion Ed; subst d. exists c'. auto.
  - destruct (Nat.eq_dec j i) as [-> | Nj]; [|exists d; rewrite (Ho _ Nj); split; [exact Ed|split; [exact I|apply like_refl]]]. rewrite Ec in Ed. inversion Ed; subst d. exists c'. auto.
Qed.
Lemma keeps_each {A} (f : A -> ctx -> option ctx) l : (forall a x y, In a l -> f a x = Some y -> x ~> y) -> forall x y, each f l x = Some y -> x ~> y.
Proof.
  induction l as [|a l IH]; intros H x y E; cbn [each] in E; [inversion E; apply keeps_refl|]. unfold ChanModel.bind in E. destruct (f a x) as [z|] eqn:Ez; [|discriminate].
  apply (keeps_trans _ z); [apply (H a); [left; reflexivity|exact Ez]|]. apply IH; [|exact E]. intros b u v I. apply H. right. exact I.
Qed.
Ltac out1 := eexists; split; [reflexivity|repeat constructor].
Ltac out0 := apply longer_same; reflexivity.
Ltac others := intros; cbn; rewrite ?upd_other by assumption; reflexivity.
Lemma keeps_build a r ok x y o : build_conn a r ok x = (y, o) -> x ~> y.
Proof.
  unfold build_conn. destruct (negb (x_run x)); [intros E; inversion E; apply keeps_refl|]. destruct (x_addr x a); [intros E; inversion E; apply keeps_refl|].
  destruct (r || ok); [|intros E; inversion E; apply keeps_refl]. intros E. inversion E; subst. apply keeps_rest; [reflexivity|]. eexists. split; [reflexivity|]. destruct r; repeat constructor.
Qed.
Lemma keeps_create_one n i x y : create_one n i x = Some y -> x ~> y.
Proof.
  unfold create_one. destruct (x_conns x n) as [k|]; [|discriminate].
  destruct (x_chans x i) as [c|] eqn:Ec; [|intros E; inversion E; apply keeps_quiet; reflexivity]. destruct (c_state c) eqn:Es; try (intros E; inversion E; apply keeps_quiet; reflexivity).
  destruct (n_bev k); [|discriminate]. intros E. inversion E; subst. apply (keeps_chan x _ i c (c_with_state Creating c)); [exact Ec|cbn; apply upd_same|others|out1|auto|auto|].
  split; [reflexivity|]. split; [reflexivity|]. congruence.
Qed.
Lemma keeps_create_channels n x y : create_channels n x = Some y -> x ~> y.
Proof.
  unfold create_channels. destruct (x_conns x n) as [k|]; [|discriminate]. destruct (n_ready k); [|intros E; inversion E; apply keeps_refl].
  apply keeps_each. intros i u v _. apply keeps_create_one.
Qed.
Lemma keeps_attach i n x y : (forall c, x_chans x i = Some c -> S i \/ c_state c <> Active) -> attach i n x = Some y -> x ~> y.
Proof.
  unfold attach. intros Hs. destruct (x_chans x i) as [c|] eqn:Ec; [|discriminate]. destruct (x_conns x n) as [k|]; [|discriminate]. intros E. apply keeps_create_channels in E.
  eapply keeps_trans; [|exact E]. apply (keeps_chan x _ i c (c_with_state Connecting (c_with_conn (Some n) c))); [exact Ec|cbn; apply upd_same|others|out0|auto|auto|].
  split; [reflexivity|]. split; [reflexivity|]. intros N E'. destruct (Hs c eq_refl); contradiction.
Qed.
Lemma keeps_create_operations i x y : create_operations i x = Some y -> x ~> y.
Proof.
  unfold create_operations. destruct (x_chans x i) as [c|] eqn:Ec; [|discriminate]. destruct (c_state c) eqn:Es; try (intros E; inversion E; apply keeps_refl).
  assert (L : forall p o, like S (fun o => D o \/ snd T o) i c (c_with_ops p (c_ops c ++ o) c)) by (intros; split; [reflexivity|]; split; [reflexivity|]; intros _ E; split; [exact E|]; split; [reflexivity|]; split; [reflexivity|]; intros u I _; cbn; apply in_app_iff; left; exact I).
  destruct (filter _ _) as [|a l].
  - intros E. inversion E; subst. apply (keeps_chan x _ i c (c_with_ops [] (c_ops c) c)); [exact Ec|cbn; apply upd_same|others|out0|auto|auto|]. pose proof (L [] []) as L0. rewrite app_nil_r in L0. exact L0.
  - destruct (c_conn c) as [n|]; [|discriminate]. destruct (x_conns x n) as [k|]; [|discriminate]. destruct (n_bev k); [|discriminate]. intros E. inversion E; subst.
    apply (keeps_chan x _ i c (c_with_ops [] (c_ops c ++ a :: l) c)); [exact Ec|cbn; apply upd_same|others| |auto|auto|apply L].
    eexists. split; [reflexivity|]. apply Forall_forall. intros e [<- | I]; [exact Logic.I|]. apply in_map_iff in I. destruct I as (o & <- & _). exact Logic.I.
Qed.
Lemma keeps_disconnect again i x y : tells_again T again -> S i -> disconnect true again i x = Some y -> x ~> y.
Proof.
  intros Ht Hi. unfold disconnect. destruct (x_chans x i) as [c|] eqn:Ec; [|discriminate].
  set (k := match c_conn c with Some n => option_map (pair n) (x_conns x n) | None => None end).
  cbn [negb]. set (sends0 := match k, c_state c with Some (n, k), Creating | Some (n, k), Active => if n_bev k then [ODestroy n (c_sid c) i] else [] | _, _ => [] end).
  intros E. assert (E' : match c_server c with
               | None => Some (set_search (x_search (disc again i c k x) ++ [i]) (disc again i c k x))
               | Some a => match build_conn a true true (disc again i c k x) with (x3, Some n) => attach i n x3 | (x3, None) => Some x3 end
               end = Some y) by (destruct k as [(n, k')|]; destruct (c_state c) eqn:Es; try discriminate; (rewrite <- E; unfold disc, sends, downs, losts, gone, alive, left_; rewrite ?Es; reflexivity)).
  clear E. assert (G : x ~> disc again i c k x).
  { apply (keeps_chan x _ i c (gone again c)); [exact Ec|unfold disc; cbn; apply upd_same| | |auto| |].
    - intros j N. unfold disc. cbn. rewrite upd_other by exact N. destruct k as [(n, k')|]; reflexivity.
    - eexists. split; [|apply (tells_disc T again i c k Ht)]. unfold disc. cbn. destruct k as [(n, k')|]; reflexivity.
    - intros w I _. cbn. rewrite map_map. exact I.
    - split; [reflexivity|]. split; [reflexivity|]. contradiction. }
  eapply keeps_trans; [exact G|]. destruct (c_server c) as [a|]; [|inversion E'; apply keeps_quiet; reflexivity].
  destruct (build_conn a true true (disc again i c k x)) as (z & o) eqn:Eb. apply keeps_build in Eb. eapply keeps_trans; [exact Eb|]. destruct o as [n|]; [|inversion E'; apply keeps_refl].
  apply (keeps_attach i n); [intros; left; exact Hi|exact E'].
Qed.
Lemma keeps_cleanup again n x y : (forall k i, x_conns x n = Some k -> In i (listed k) -> tells_again T again /\ S i) -> cleanup again n x = Some y -> x ~> y.
Proof.
  intros H. unfold cleanup. destruct (x_conns x n) as [k|] eqn:Ek; [|discriminate]. unfold ChanModel.bind. destruct (each _ _ _) as [z|] eqn:Ez; [|discriminate].
  intros E. eapply keeps_trans; [|eapply keeps_trans; [apply (keeps_each _ _) in Ez; [exact Ez|]|]].
  - apply keeps_quiet; reflexivity.
  - intros i u v I. apply filter_In in I. destruct (H k i eq_refl (proj1 I)) as (Ht & Hi). apply keeps_disconnect; assumption.
  - destruct (x_conns z n) as [k2|]; [|discriminate]. destruct (n_ops k2); [|discriminate]. inversion E. apply keeps_quiet; reflexivity.
Qed.
Lemma keeps_free_chan h i x y : fine h x -> free_chan i x = Some y -> x ~> y.
Proof.
  intros G. unfold free_chan. destruct (x_chans x i) as [c|] eqn:Ec; [|intros E; inversion E; apply keeps_refl]. destruct (held x i c) eqn:Hh; [intros E; inversion E; apply keeps_refl|].
  rewrite (disconnect_eq false (fun _ => false) i c x (gA _ _ _ _ _ G) Ec). cbn [negb option_map]. intros E. inversion E; subst. clear E.
  unfold held in Hh. apply orb_false_iff in Hh. destruct Hh as (Hh & Hw). apply orb_false_iff in Hh. destruct Hh as (_ & Hr).
  assert (Ho : forall j, j <> i -> x_chans (set_chan i None (disc (fun _ : nat => false) i c (conn_of x c) x)) j = x_chans x j).
  { intros j N. unfold disc. cbn. rewrite !upd_other by exact N. destruct (conn_of x c) as [(n, k)|]; reflexivity. }
  constructor.
  - exists (sends i c (conn_of x c) ++ downs c ++ losts (fun _ => false) c). split; [unfold disc; cbn; destruct (conn_of x c) as [(n, k)|]; reflexivity|].
    assert (L0 : losts (fun _ => false) c = []). { unfold losts, alive. destruct (c_refs c); [|discriminate]. assert (E0 : forall l, filter (fun o => is_in o []) l = []) by (induction l; auto). rewrite E0. reflexivity. }
    rewrite L0, app_nil_r. apply Forall_app. split; [unfold sends; destruct (conn_of x c) as [(n, k)|]; [|constructor]; destruct (c_state c); try constructor; destruct (n_bev k); repeat constructor|].
    apply Forall_forall. intros e I. apply in_flat_map in I. destruct I as (w & _ & I). destruct (snd w); [destruct I as [<- | []]; exact Logic.I|destruct I].
  - intros j d o Ed I _. destruct (Nat.eq_dec j i) as [-> | N].
    + rewrite Ec in Ed. inversion Ed; subst d. destruct (c_refs c); [destruct I|discriminate].
    + exists d. rewrite (Ho j N). split; [exact Ed|]. split; [exact I|apply like_refl].
  - intros j d w Ed I _. destruct (Nat.eq_dec j i) as [-> | N].
    + rewrite Ec in Ed. inversion Ed; subst d. destruct (c_watch c); [destruct I|discriminate].
    + exists d. rewrite (Ho j N). split; [exact Ed|]. split; [exact I|apply like_refl].
Qed.
Lemma unused_listed h n k x : fine h x -> x_conns x n = Some k -> used x n = false -> forall i, ~ In i (listed k).
Proof.
  intros G Ek U i I. pose proof (gA _ _ _ _ _ G) as A. destruct (used_false x n A U) as (U1 & _). unfold listed in I. apply nodup_In in I. apply in_app_iff in I. destruct I as [I | I].
  - apply (a_pend _ A _ _ _ Ek) in I. destruct I as (d & I). apply (U1 _ _ _ I).
  - apply in_app_iff in I. destruct I as [I | I].
    + apply in_map_iff in I. destruct I as ((d, j) & E & I). cbn in E. subst j. apply (a_sid _ A _ _ _ _ Ek) in I. apply (U1 _ _ _ I).
    + apply (a_crea _ A _ _ _ Ek) in I. destruct I as (d & I). apply (U1 _ _ _ I).
Qed.
Lemma keeps_free_conn h n x y : fine h x -> free_conn n x = Some y -> x ~> y.
Proof.
  intros G. unfold free_conn. destruct (x_conns x n) as [k|] eqn:Ek; [|intros E; inversion E; apply keeps_refl]. destruct (used x n) eqn:U; [intros E; inversion E; apply keeps_refl|].
  destruct (cleanup _ _ _) as [z|] eqn:Ez; [|discriminate]. cbn [option_map]. intros E. inversion E; subst. eapply keeps_trans; [apply (keeps_cleanup _ _ _ _) in Ez; [exact Ez|]|apply keeps_quiet; reflexivity].
  intros k' i Ek' I. exfalso. assert (k' = k) by congruence. subst. apply (unused_listed h n k x G Ek U i I).
Qed.
Lemma each_keeps_good {A} h (f : A -> ctx -> option ctx) : (forall a x, fine h x -> exists x', f a x = Some x' /\ fine h x' /\ kept x x') ->
  (forall a x y, fine h x -> f a x = Some y -> x ~> y) -> forall l x y, fine h x -> each f l x = Some y -> x ~> y.
Proof.
  intros Hg Hk. induction l as [|a l IH]; intros x y G E; cbn [each] in E; [inversion E; apply keeps_refl|].
  destruct (Hg a x G) as (z & Ez & Gz & _). rewrite Ez in E. cbn [ChanModel.bind] in E. eapply keeps_trans; [apply (Hk a _ _ G Ez)|apply (IH _ _ Gz E)].
Qed.
Lemma keeps_collect h x y : fine h x -> collect x = Some y -> x ~> y.
Proof.
  intros G. unfold collect. destruct (each_good h (fun _ => True) free_chan (fun i => free_chan_good h i) (seq 0 (x_nc x)) x G) as (z & Ez & Gz & _). unfold ChanModel.bind. rewrite Ez. intros E.
  eapply keeps_trans; [apply (each_keeps_good h free_chan (fun i => free_chan_good h i) (fun i => keeps_free_chan h i) _ _ _ G Ez)|].
  apply (each_keeps_good h free_conn (fun i => free_conn_good h i) (fun i => keeps_free_conn h i) _ _ _ Gz E).
Qed.
Lemma keeps_build_chan h name server ok x y o : fine h x -> build_chan name server ok x = Some (y, o) -> x ~> y.
Proof.
  intros G. unfold build_chan. destruct (negb (x_run x)); [intros E; inversion E; apply keeps_refl|]. destruct (find_name _ _); [intros E; inversion E; apply keeps_refl|].
  fold (newchan name server x).
  assert (N : x ~> newchan name server x).
  { assert (Nn : x_chans x (x_nc x) = None). { destruct (x_chans x (x_nc x)) as [c|] eqn:E; [|reflexivity]. apply (a_chan _ (gA _ _ _ _ _ G)) in E. lia. }
    constructor; [out0| |]; intros j d u Ed I _; (assert (j <> x_nc x) by congruence; exists d; cbn; rewrite upd_other by assumption; split; [exact Ed|]; split; [exact I|apply like_refl]). }
  destruct server as [a|]; [|intros E; inversion E; subst; eapply keeps_trans; [exact N|apply keeps_quiet; reflexivity]].
  destruct (build_conn a false ok (newchan name (Some a) x)) as (z, [n|]) eqn:Eb.
  - destruct (attach (x_nc x) n z) as [w|] eqn:Ew; [|discriminate]. cbn [ChanModel.bind]. intros E. inversion E; subst.
    assert (Ez : forall c, x_chans z (x_nc x) = Some c -> c_state c <> Active).
    { intros c Ec. assert (Hz : x_chans z = x_chans (newchan name (Some a) x)). { unfold build_conn in Eb. destruct (negb _); [inversion Eb|]. destruct (x_addr _ a); [inversion Eb; reflexivity|]. destruct (false || ok); inversion Eb; reflexivity. }
      rewrite Hz in Ec. cbn in Ec. rewrite upd_same in Ec. inversion Ec. discriminate. }
    eapply keeps_trans; [exact N|]. eapply keeps_trans; [apply (keeps_build _ _ _ _ _ _ Eb)|]. apply (keeps_attach _ _ _ _ (fun c H => or_intror (Ez c H)) Ew).
  - intros E. inversion E; subst. eapply keeps_trans; [exact N|apply (keeps_build _ _ _ _ _ _ Eb)].
Qed.
Lemma keeps_leave_op i op x y : (D op \/ snd T op) -> leave_op i op x = Some y -> x ~> y.
Proof.
  intros Hop.  unfold leave_op. destruct (x_chans x i) as [c|] eqn:Ec; [|intros E; inversion E; apply keeps_refl]. destruct (is_in op (c_ops c)); [|intros E; inversion E; apply keeps_refl].
  destruct (c_conn c) as [n|]; [|discriminate]. destruct (x_conns x n) as [k|]; [|discriminate]. intros E. inversion E; subst.
  apply (keeps_chan x _ i c (c_with_ops (c_pending c) (without op (c_ops c)) c)); [exact Ec|cbn; apply upd_same|others|out0|auto|auto|]. split; [reflexivity|]. split; [reflexivity|]. intros _ Ea. split; [exact Ea|]. split; [reflexivity|]. split; [reflexivity|].
  intros u I N. cbn. apply in_without. split; [intros ->; contradiction|exact I].
Qed.
Lemma keeps_clean h name a again l : (a = Disconnect -> tells_again T again) -> (a = Disconnect -> forall key i, In (key, i) l -> (name = [] \/ fst key = name) -> S i) -> forall x y, fine h x -> NoDup (map fst l) -> (forall e, In e l -> In e (x_names x)) ->
  each (fun e x => ChanModel.bind (clean_one name a again e x) collect) l x = Some y -> x ~> y.
Proof.
  intros HT HS. induction l as [|(key, i) l IH]; intros x y G Nd Hl E.
  { cbn [each] in E. inversion E. apply keeps_refl. }
  destruct (clean_loop h name a again [(key, i)] x G) as (z & Ez & Gz); [cbn; constructor; [intros []|constructor]|intros e [<- | []]; apply Hl; left; reflexivity|].
  cbn [each ChanModel.bind] in E, Ez. destruct (clean_one name a again (key, i) x) as [u|] eqn:Eu; [|discriminate]. cbn [ChanModel.bind] in E, Ez. destruct (collect u) as [v|] eqn:Ev; [|discriminate]. cbn [ChanModel.bind] in E, Ez.
  assert (Hv : v = z) by (inversion Ez; reflexivity). clear Ez. subst v. cbn in Nd. inversion Nd as [|? ? Nk Nd']; subst.
  assert (K : x ~> u /\ fine h u /\ (forall p, In p (x_names x) -> fst p <> key -> In p (x_names u))).
  { unfold clean_one in Eu. destruct (negb _) eqn:Em; [inversion Eu; subst; split; [apply keeps_refl|split; [exact G|auto]]|].
    assert (Hm : name = [] \/ fst key = name). { apply negb_false_iff in Em. destruct name; [left; reflexivity|]. right. apply str_eqb_eq, Em. }
    destruct (d_in _ (gD _ _ _ _ _ G) key i (Hl _ (or_introl eq_refl))) as (c & Ec & Hk). rewrite Ec in Eu.
    set (names := filter (fun p => negb (key_eqb key (fst p))) (x_names x)) in *.
    assert (G1 : fine h (set_names names x)). { apply (good_prim h None None None x); [exact G|]. apply P_names; [intros p I; apply filter_In in I; apply I|]. apply nodup_filter, (d_nd _ (gD _ _ _ _ _ G)). }
    assert (K1 : forall p, In p (x_names x) -> fst p <> key -> In p names).
    { intros p I N. apply filter_In. split; [exact I|]. destruct (key_eqb key (fst p)) eqn:E'; [|reflexivity]. apply key_eqb_eq in E'. congruence. }
    assert (Kn : x ~> set_names names x) by (apply keeps_quiet; reflexivity).
    destruct a.
    - destruct (c_refs c); [destruct (c_watch c)|]; inversion Eu; subst; (split; [first [exact Kn | apply keeps_refl]|]; split; [assumption|auto]).
    - inversion Eu; subst. auto.
    - destruct (disconnect_good h again None i c (set_names names x) G1 Ec) as (u' & c' & Eu' & Gu & Fu & _). rewrite Eu' in Eu. inversion Eu; subst u'.
      split; [eapply keeps_trans; [exact Kn|apply (keeps_disconnect again i); [apply HT; reflexivity|apply (HS eq_refl key i); [left; reflexivity|exact Hm]|exact Eu']]|]. split; [exact Gu|]. rewrite (r_names _ _ _ Fu). exact K1. }
  destruct K as (K & Gu & Ku). destruct (collect_good h u Gu) as (z' & Ez' & _ & Kz). assert (z' = z) by congruence. subst z'.
  eapply keeps_trans; [exact K|]. eapply keeps_trans; [apply (keeps_collect h _ _ Gu Ev)|]. apply IH; auto.
  - intros Ea key' i' I. apply (HS Ea key' i'). right. exact I.
  - intros e I. rewrite (k_names _ _ Kz). apply Ku; [apply Hl; right; exact I|]. intros E'. apply Nk. rewrite <- E'. apply in_map, I.
Qed.
Lemma keeps_ns h ok after : forall before x y, fine h x -> x_ns x = before ++ after -> ns_check ok before after x = Some y -> x ~> y.
Proof.
  induction after as [|(a, o) l IH]; intros before x y G Hn E; cbn [ns_check] in E; [inversion E; apply keeps_refl|].
  destruct (match o with Some n => match x_conns x n with Some k => match n_state k with Disconnected => false | _ => true end | None => false end | None => false end).
  - apply (IH (before ++ [(a, o)]) x y G); [rewrite Hn, <- app_assoc; reflexivity|exact E].
  - destruct (build_conn_good h None None None a false (ok a) x G) as (z & o' & Eb & G2 & F2 & Hc & Hs2 & Hnn & Hno & _ & Hk). rewrite Eb in E. destruct o' as [n|]; [|inversion E; subst; apply (keeps_build _ _ _ _ _ _ Eb)].
    destruct (Hnn n eq_refl) as (k & Ek & Ea & Er). rewrite Ek in E.
    assert (G3 : fine h (set_conn n (Some (n_with_ns k)) z)) by (apply (good_prim h None None None z); [exact G2|apply P_nsconn, Ek]).
    assert (G4 : fine h (set_ns (before ++ (a, Some n) :: l) (set_conn n (Some (n_with_ns k)) z))).
    { eapply good_prim; [exact G3|]. apply P_ns. intros b m I. cbn. unfold upd. destruct (Nat.eqb_spec m n); [discriminate|].
      assert (I' : In (b, Some m) (x_ns x)). { rewrite Hn. apply in_app_iff in I. apply in_app_iff. destruct I as [I | [I | I]]; [left; exact I|inversion I; congruence|right; right; exact I]. }
      destruct (a_ns _ (gA _ _ _ _ _ G) _ _ I') as (q & Eq). rewrite (Hk _ _ Eq). discriminate. }
    destruct (collect_good h _ G4) as (u & Eu & Gu & Ku). rewrite Eu in E. cbn [ChanModel.bind] in E.
    eapply keeps_trans; [apply (keeps_build _ _ _ _ _ _ Eb)|]. eapply keeps_trans; [|eapply keeps_trans; [apply (keeps_collect h _ _ G4 Eu)|]]; [apply keeps_quiet; reflexivity|].
    apply (IH (before ++ [(a, Some n)]) u y Gu); [|exact E]. rewrite (k_ns _ _ Ku). cbn. rewrite <- app_assoc. reflexivity.
Qed.
End Keeps.
