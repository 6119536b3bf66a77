(** Events, and what they leave alone. *)
From Coq Require Import ZArith List Bool Arith Lia.
From Verif Require Import Base BaseProofs ChanModel ChanSpec ChanProofs ChanProofs2 ChanProofs3 ChanProofs4 ChanProofs5 ChanProofs6 ChanProofs7 ChanProofs8.
Import ListNotations.

Lemma listed_on x n k i : coreA x -> x_conns x n = Some k -> In i (listed k) -> exists c, x_chans x i = Some c /\ c_conn c = Some n /\ c_state c <> Searching.
Proof.
  intros A Ek I. assert (P : exists s d, place x i = Some (n, s, d) /\ s <> Searching).
  { unfold listed in I. apply nodup_In in I. apply in_app_iff in I. destruct I as [I | I].
    - apply (a_pend _ A _ _ _ Ek) in I. destruct I as (d & I). exists Connecting, d. split; [exact I|discriminate].
    - apply in_app_iff in I. destruct I as [I | I].
      + apply in_map_iff in I. destruct I as ((d, j) & E & I). cbn in E. subst j. apply (a_sid _ A _ _ _ _ Ek) in I. exists Active, d. split; [exact I|discriminate].
      + apply (a_crea _ A _ _ _ Ek) in I. destruct I as (d & I). exists Creating, d. split; [exact I|discriminate]. }
  destruct P as (s & d & P & Ns). unfold place in P. destruct (x_chans x i) as [c|]; [|discriminate]. destruct (c_conn c) as [m|] eqn:Em; [|discriminate]. inversion P; subst. exists c. auto.
Qed.
(** What an event may tell to operations *)
Definition telling (e : event) : (nat -> Prop) * (nat -> Prop) * (nat -> Prop) :=
  let by_ (b : bool) (o : nat) := match e with
                     | ELost _ _ again | EDestroyed _ _ again | EClean _ Disconnect again | EClose again => again o = b
                     | _ => False
                     end in
  (by_ true, by_ false, fun o => match e with EEnd _ o' => o = o' | _ => False end).
Theorem handle_keeps h e x y : fine h x -> handle e x = Some y -> keeps (drops e) (releases e) (hits x e) (telling e) x y.
Proof.
  intros G. pose proof (gA _ _ _ _ _ G) as A.
  destruct e as [name server ok|i op|i op|name server ok|i w|i a ok|i|n|n|n v again|n i sid ok|n sid again|n ok|name a again|ok|again]; cbn [handle].
  - unfold exec. destruct (build_chan name server ok x) as [(z, o)|] eqn:Eb; [|discriminate]. cbn [ChanModel.bind]. pose proof (keeps_build_chan (drops (EExec name server ok)) (releases (EExec name server ok)) (hits x (EExec name server ok)) (telling (EExec name server ok)) h _ _ _ _ _ _ G Eb) as K.
    destruct o as [i|]; [|intros E; inversion E; subst; exact K]. destruct (x_chans z i) as [c|] eqn:Ec; [|discriminate]. intros E. eapply keeps_trans; [exact K|]. eapply keeps_trans; [|apply (keeps_create_operations _ _ _ _ _ _ _ E)].
    eapply (keeps_chan _ _ _ _ z _ i c); [exact Ec|cbn; apply upd_same|intros; cbn; rewrite upd_other by assumption; reflexivity|apply longer_same; reflexivity| |auto|].
    + intros o I _. cbn. apply in_app_iff. left. exact I.
    + split; [reflexivity|]. split; [reflexivity|]. auto.
  - unfold drop_op. destruct (leave_op i op x) as [z|] eqn:Ez; [|discriminate]. cbn [ChanModel.bind]. intros E. eapply keeps_trans; [apply (keeps_leave_op (drops (EDrop i op)) _ _ _ _ _ _ _ (or_introl eq_refl) Ez)|].
    destruct (x_chans z i) as [c|] eqn:Ec; [|inversion E; apply keeps_refl]. inversion E; subst.
    eapply (keeps_chan _ _ _ _ z _ i c); [exact Ec|cbn; apply upd_same|intros; cbn; rewrite upd_other by assumption; reflexivity|apply longer_same; reflexivity| |auto|].
    + intros o I N. cbn. apply filter_In. split; [exact I|]. cbn in N. apply negb_true_iff, Nat.eqb_neq. congruence.
    + split; [reflexivity|]. split; [reflexivity|]. auto.
  - unfold end_op. destruct (x_chans x i) as [c|]; [|intros E; inversion E; apply keeps_refl]. destruct (is_in op (c_ops c)); [|intros E; inversion E; apply keeps_refl].
    destruct (leave_op i op x) as [z|] eqn:Ez; [|discriminate]. cbn [ChanModel.bind]. intros E. inversion E; subst. eapply keeps_trans; [apply (keeps_leave_op _ _ _ (telling (EEnd i op)) _ _ _ _ (or_intror eq_refl) Ez)|]. apply keeps_rest; [reflexivity|eexists; split; [reflexivity|repeat constructor]].
  - unfold watch. destruct (build_chan name server ok x) as [(z, o)|] eqn:Eb; [|discriminate]. cbn [ChanModel.bind]. pose proof (keeps_build_chan (drops (EWatch name server ok)) (releases (EWatch name server ok)) (hits x (EWatch name server ok)) (telling (EWatch name server ok)) h _ _ _ _ _ _ G Eb) as K.
    destruct o as [i|]; [|intros E; inversion E; subst; exact K]. destruct (x_chans z i) as [c|] eqn:Ec; [|discriminate]. intros E. inversion E; subst. eapply keeps_trans; [exact K|].
    eapply (keeps_chan _ _ _ _ z _ i c); [exact Ec|cbn; apply upd_same|intros; cbn; rewrite upd_other by assumption; reflexivity|eexists; split; [reflexivity|constructor; [destruct (c_state c); exact Logic.I|constructor]]|auto| |].
    + intros o I _. cbn. rewrite map_app. apply in_app_iff. left. exact I.
    + split; [reflexivity|]. split; [reflexivity|]. auto.
  - destruct (x_chans x i) as [c|] eqn:Ec; [|intros E; inversion E; apply keeps_refl]. intros E. inversion E; subst.
    eapply (keeps_chan _ _ _ _ x _ i c); [exact Ec|cbn; apply upd_same|intros; cbn; rewrite upd_other by assumption; reflexivity|apply longer_same; reflexivity|auto| |].
    + intros o I N. cbn in *. apply in_map_iff in I. destruct I as (p & <- & I). apply in_map. apply filter_In. split; [exact I|]. apply negb_true_iff, Nat.eqb_neq. congruence.
    + split; [reflexivity|]. split; [reflexivity|]. auto.
  - unfold found. destruct (x_chans x i) as [c|] eqn:Ec; [|intros E; inversion E; apply keeps_refl]. destruct (c_state c) eqn:Es; try (intros E; inversion E; apply keeps_refl).
    destruct (build_conn_good h None None None a false ok x G) as (z & o & Eb & _ & _ & Hc & _). rewrite Eb. destruct o as [n|]; [|intros E; inversion E; subst; apply (keeps_build _ _ _ _ _ _ _ _ _ _ Eb)].
    intros E. eapply keeps_trans; [apply (keeps_build _ _ _ _ _ _ _ _ _ _ Eb)|]. apply (keeps_attach _ _ _ _ i n); [|exact E]. intros d Ed. right. rewrite Hc in Ed. congruence.
  - destruct (x_chans x i) as [c|]; [destruct (c_state c)|]; intros E; inversion E; subst; try apply keeps_refl; apply keeps_quiet; reflexivity.
  - unfold tcp_up. destruct (x_conns x n) as [k|]; [|intros E; inversion E; apply keeps_refl]. destruct (n_state k); try (intros E; inversion E; apply keeps_refl). destruct (n_bev k); intros E; inversion E; subst; [apply keeps_quiet; reflexivity|apply keeps_refl].
  - unfold validated. destruct (x_conns x n) as [k|]; [|intros E; inversion E; apply keeps_refl]. destruct (open k); [|intros E; inversion E; apply keeps_refl]. intros E.
    eapply keeps_trans; [|apply (keeps_create_channels _ _ _ _ _ _ _ E)]. apply keeps_quiet; reflexivity.
  - unfold lost. destruct (x_conns x n) as [k|] eqn:Ek; [|intros E; inversion E; apply keeps_refl]. destruct (n_bev k); [|intros E; inversion E; apply keeps_refl]. intros E.
    apply (keeps_cleanup (drops (ELost n v again)) (releases (ELost n v again)) (hits x (ELost n v again)) (telling (ELost n v again)) again n) in E; [eapply keeps_trans; [|exact E]; apply keeps_quiet; reflexivity|].
    intros k' i Ek' I. cbn in Ek'. rewrite upd_same in Ek'. inversion Ek'; subst k'. destruct (listed_on x n k i A Ek I) as (c & Ec & En & _). split; [split; auto|]. exists c. auto.
  - unfold created. destruct (x_conns x n) as [k|] eqn:Ek; [|intros E; inversion E; apply keeps_refl]. destruct (open k); [|intros E; inversion E; apply keeps_refl].
    set (D := drops (ECreated n i sid ok)). set (W := releases (ECreated n i sid ok)). set (S := hits x (ECreated n i sid ok)). set (T := telling (ECreated n i sid ok)).
    assert (St : forall x1, x_chans x1 = x_chans x -> x_out x1 = x_out x -> Some (emit (if ok then [ODestroy n sid i] else []) x1) = Some y -> keeps D W S T x y).
    { intros x1 H1 H2 E. inversion E; subst. apply keeps_rest; [cbn; exact H1|]. exists (if ok then [ODestroy n sid i] else []). split; [cbn; rewrite H2; reflexivity|]. destruct ok; repeat constructor. }
    destruct (is_in i (n_creating k)) eqn:I; [|apply St; reflexivity]. destruct (x_chans x i) as [c|] eqn:Ec; [|apply St; reflexivity].
    apply is_in_iff in I. assert (Es : c_state c = Creating).
    { apply (a_crea _ A _ _ _ Ek) in I. destruct I as (d & Pl). unfold place in Pl. rewrite Ec in Pl. destruct (c_conn c); [|discriminate]. inversion Pl; reflexivity. }
    destruct ok; cbn [negb].
    + destruct (create_operations _ _) as [z|] eqn:Ez; [|discriminate]. cbn [ChanModel.bind]. destruct (x_chans z i) as [c3|] eqn:Ec3; [|discriminate]. intros E. inversion E; subst.
      apply (keeps_create_operations D W S T) in Ez. eapply keeps_trans; [|eapply keeps_trans; [exact Ez|]].
      * eapply (keeps_chan _ _ _ _ x _ i c); [exact Ec|cbn; apply upd_same|intros; cbn; rewrite upd_other by assumption; reflexivity|apply longer_same; reflexivity|auto|auto|].
        split; [reflexivity|]. split; [reflexivity|]. congruence.
      * eapply (keeps_chan _ _ _ _ z _ i c3); [exact Ec3|cbn; apply upd_same|intros; cbn; rewrite upd_other by assumption; reflexivity| |auto| |].
        -- eexists. split; [reflexivity|]. apply Forall_forall. intros e Ie. apply in_flat_map in Ie. destruct Ie as (w & _ & Ie). destruct (snd w); [destruct Ie|destruct Ie as [<- | []]; exact Logic.I].
        -- intros w Iw _. cbn. rewrite map_map. exact Iw.
        -- split; [reflexivity|]. split; [reflexivity|]. auto.
    + intros E. inversion E; subst. eapply (keeps_chan _ _ _ _ x _ i c); [exact Ec|cbn; apply upd_same|intros; cbn; rewrite upd_other by assumption; reflexivity|apply longer_same; reflexivity|auto|auto|].
      split; [reflexivity|]. split; [reflexivity|]. congruence.
  - unfold destroyed. destruct (x_conns x n) as [k|] eqn:Ek; [|intros E; inversion E; apply keeps_refl]. destruct (open k); [|intros E; inversion E; apply keeps_refl].
    destruct (find_sid sid (n_bysid k)) as [i|] eqn:Ef; [|intros E; inversion E; apply keeps_refl]. destruct (x_chans x i) as [c|] eqn:Ec; [|intros E; inversion E; apply keeps_refl].
    apply keeps_disconnect; [split; auto|]. exists c. split; [exact Ec|]. unfold find_sid in Ef. destruct (find _ _) as [(d, j)|] eqn:Eg; [|discriminate]. apply find_some in Eg. cbn in Ef, Eg. inversion Ef; subst j.
    destruct Eg as (I & Ed). apply Z.eqb_eq in Ed. subst d. apply (a_sid _ A _ _ _ _ Ek) in I. unfold place in I. rewrite Ec in I. destruct (c_conn c); [|discriminate]. inversion I; auto.
  - unfold tick. destruct (x_conns x n) as [k|]; [|intros E; inversion E; apply keeps_refl]. destruct (n_timer k); [|intros E; inversion E; apply keeps_refl].
    destruct (n_state k); [destruct ok; intros E; inversion E; subst; apply keeps_rest; try reflexivity; [eexists; split; [reflexivity|repeat constructor]|apply longer_same; reflexivity]| | |];
      (intros E; inversion E; subst; apply keeps_rest; [reflexivity|]; eexists; split; [reflexivity|destruct (n_bev k); repeat constructor]).
  - unfold clean. apply (keeps_clean _ _ _ _ h); auto; [intros ->; split; auto| |apply (d_nd _ (gD _ _ _ _ _ G))]. intros -> key i I Hm. destruct (d_in _ (gD _ _ _ _ _ G) _ _ I) as (c & Ec & ->). exists c. split; [exact Ec|]. cbn in Hm. auto.
  - apply (keeps_ns _ _ _ _ h); [exact G|reflexivity].
  - unfold close. destruct (negb (x_run x)); [intros E; inversion E; apply keeps_refl|]. destruct (each _ _ _) as [z|] eqn:Ez; [|discriminate]. cbn [ChanModel.bind]. intros E. inversion E; subst. clear E.
    set (D := drops (EClose again)). set (W := releases (EClose again)). set (S := hits x (EClose again)). set (T := telling (EClose again)).
    enough (K : keeps D W S T x z) by (eapply keeps_trans; [exact K|apply keeps_quiet; reflexivity]).
    assert (G1 : fine h (stop x)) by (apply (good_prim h None None None x); [exact G|apply P_stop]).
    assert (K0 : keeps D W S T x (stop x)) by (apply keeps_quiet; reflexivity). eapply keeps_trans; [exact K0|].
    assert (Hx : forall j c, x_chans (stop x) j = Some c -> S j) by (intros j c Ec; exists c; split; [exact Ec|exact I]).
    assert (Hn : forall n, In n (filter (fun n => match x_conns x n with Some k => match x_addr x (n_addr k) with Some m => Nat.eqb n m | None => false end | None => false end) (seq 0 (x_nn x))) -> x_conns (stop x) n <> None).
    { intros n I E. apply filter_In in I. destruct I as (_ & I). cbn in E. rewrite E in I. discriminate. }
    clear K0 G A. revert Ez G1 Hx Hn. generalize (stop x) as u. induction (filter _ _) as [|n l IH]; intros u Ez Gu Hx Hn; cbn [each] in Ez; [inversion Ez; apply keeps_refl|].
    pose proof (Hn n (or_introl eq_refl)) as Hc. destruct (x_conns u n) as [k|] eqn:Ek; [clear Hc|congruence].
    destruct (cleanup_good h again n k u Gu Ek) as (v & Ev & Gv & Sv & _). rewrite Ev in Ez. cbn [ChanModel.bind] in Ez. eapply keeps_trans; [apply (keeps_cleanup D W S T again n u v); [|exact Ev]|].
    + intros k' j Ek' I. assert (k' = k) by congruence. subst k'. destruct (listed_on u n k j (gA _ _ _ _ _ Gu) Ek I) as (c & Ec & _). split; [split; auto|]. apply (Hx _ _ Ec).
    + apply IH; auto.
      * intros j c Ec. destruct (x_chans u j) as [d|] eqn:Ed; [apply (Hx _ _ Ed)|]. apply (s_none _ _ _ Sv) in Ed. congruence.
      * intros m I E. pose proof (Hn m (or_intror I)) as Hm. destruct (x_conns u m) as [q|] eqn:Eq; [|congruence]. destruct (s_conns _ _ _ Sv _ _ Eq) as (q' & E' & _). congruence.
Qed.
Theorem step_keeps h e x y : fine h x -> honest x e -> (h = true -> no_failure e) -> step x e = Some y -> keeps (drops e) (releases e) (hits x e) (telling e) x y.
Proof.
  intros G Hh Hf E. destruct (handle_good h e x G Hh Hf) as (z & Ez & Gz). unfold step in E. rewrite Ez in E. cbn [ChanModel.bind] in E.
  eapply keeps_trans; [apply (handle_keeps h e x z G Ez)|]. apply (keeps_collect _ _ _ _ h _ _ Gz E).
Qed.
Theorem run_out h es : forall x y, fine h x -> honest_run x es -> (h = true -> Forall no_failure es) -> run x es = Some y -> exists l, x_out y = x_out x ++ l.
Proof.
  induction es as [|e es IH]; intros x y G Hr Hf E; cbn [run] in E; [inversion E; exists []; symmetry; apply app_nil_r|]. destruct Hr as (H1 & H2).
  assert (Hf1 : h = true -> no_failure e) by (intros T; specialize (Hf T); inversion Hf; assumption). assert (Hf2 : h = true -> Forall no_failure es) by (intros T; specialize (Hf T); inversion Hf; assumption).
  destruct (step_good h e x G H1 Hf1) as (z & Ez & Gz). rewrite Ez in E. cbn [ChanModel.bind] in E. destruct (g_out _ _ _ _ _ _ (step_keeps h e x z G H1 Hf1 Ez)) as (l & El & _).
  destruct (IH z y Gz (H2 z Ez) Hf2 E) as (m & Em). exists (l ++ m). rewrite Em, El. symmetry. apply app_assoc.
Qed.
