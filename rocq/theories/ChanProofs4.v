(** Connect handles, and the names of channels. *)
From Coq Require Import ZArith List Bool Arith Lia.
From Verif Require Import Base BaseProofs ChanModel ChanSpec ChanProofs ChanProofs2 ChanProofs3.
Import ListNotations.

Record coreC (x : ctx) : Prop := {
  w_flag : forall i c w b, x_chans x i = Some c -> In (w, b) (c_watch c) -> b = is_active c /\ told_to w (x_out x) = Some (Some b);
  w_own : forall i j c d w, x_chans x i = Some c -> x_chans x j = Some d -> In w (map fst (c_watch c)) -> In w (map fst (c_watch d)) -> i = j;
  w_lt : forall i c w, x_chans x i = Some c -> In w (map fst (c_watch c)) -> w < x_nw x;
  w_nd : forall i c, x_chans x i = Some c -> NoDup (map fst (c_watch c));
  w_all : forall w, told_to w (x_out x) <> None;
  w_new : forall w, x_nw x <= w -> told_to w (x_out x) = Some None
}.
Definition of_w (w : nat) (e : out) : bool := match e with OUp w' | ODown w' => Nat.eqb w w' | _ => false end.
Lemma turn_other w s e : of_w w e = false -> turn w s e = s.
Proof. destruct e; cbn; try reflexivity; intros ->; reflexivity. Qed.
Lemma told_app w l m : told_to w (l ++ m) = fold_left (turn w) m (told_to w l).
Proof. unfold told_to. apply fold_left_app. Qed.
Lemma told_quiet w l m : (forall e, In e m -> of_w w e = false) -> told_to w (l ++ m) = told_to w l.
Proof.
  intros H. rewrite told_app. generalize (told_to w l). induction m as [|e m IH]; intros s; cbn [fold_left]; [reflexivity|].
  rewrite turn_other by (apply H; left; reflexivity). apply IH. intros f I. apply H. right. exact I.
Qed.
Definition hush (l : list out) : Prop := forall e w, In e l -> of_w w e = false.
Lemma hush_nil : hush [].
Proof. intros e w []. Qed.
Lemma plain_hush l : Forall plain l -> hush l.
Proof. intros H e o I. rewrite Forall_forall in H. specialize (H e I). destruct e; cbn in *; tauto. Qed.
Lemma coreC_same x x' :
  coreC x -> x_nw x' = x_nw x -> (exists l, x_out x' = x_out x ++ l /\ hush l) ->
  (forall i c', x_chans x' i = Some c' -> exists c, x_chans x i = Some c /\ c_watch c' = c_watch c /\ (is_active c' = is_active c)) ->
  coreC x'.
Proof.
  intros C En (l & El & Hq) H1.
  assert (L : forall w, told_to w (x_out x') = told_to w (x_out x)) by (intros w; rewrite El; apply told_quiet; intros e I; apply Hq, I).
  constructor.
  - intros i c' w b Ec' I. destruct (H1 _ _ Ec') as (c & Ec & E1 & E2). rewrite L, E2. rewrite E1 in I. apply (w_flag _ C _ _ _ _ Ec I).
  - intros i j c' d' w Ec' Ed'. destruct (H1 _ _ Ec') as (c & Ec & E1 & _), (H1 _ _ Ed') as (d & Ed & F1 & _). rewrite E1, F1. apply (w_own _ C _ _ _ _ _ Ec Ed).
  - intros i c' w Ec'. destruct (H1 _ _ Ec') as (c & Ec & E1 & _). rewrite E1, En. apply (w_lt _ C _ _ _ Ec).
  - intros i c' Ec'. destruct (H1 _ _ Ec') as (c & Ec & E1 & _). rewrite E1. apply (w_nd _ C _ _ Ec).
  - intros w. rewrite L. apply (w_all _ C).
  - intros w. rewrite L, En. apply (w_new _ C).
Qed.
Lemma coreC_rest x x' : coreC x -> x_nw x' = x_nw x -> x_out x' = x_out x -> x_chans x' = x_chans x -> coreC x'.
Proof.
  intros C E1 E2 E3. apply (coreC_same x); auto.
  - exists []. rewrite app_nil_r. split; [exact E2|apply hush_nil].
  - intros i c E. rewrite E3 in E. eauto.
Qed.
Lemma coreC_chan x i c c' : coreC x -> x_chans x i = Some c -> c_watch c' = c_watch c -> is_active c' = is_active c -> coreC (set_chan i (Some c') x).
Proof.
  intros C Ec E1 E2. apply (coreC_same x); auto.
  - exists []. rewrite app_nil_r. split; [reflexivity|apply hush_nil].
  - intros j d H. cbn in H. apply upd_conn_cases in H. destruct H as [(-> & ->) | (N & H)]; eauto.
Qed.
Lemma coreC_emit x l : coreC x -> hush l -> coreC (emit l x).
Proof. intros C H. apply (coreC_same x); auto; [exists l; auto|]. intros i c E. eauto. Qed.
Lemma starts_hush n l : hush (map (fun o => OStart o n) l).
Proof. intros e w I. apply in_map_iff in I. destruct I as (o & <- & _). reflexivity. Qed.
Lemma losts_hush again c : hush (losts again c).
Proof. intros e w I. unfold losts in I. apply in_map_iff in I. destruct I as (o & <- & _). destruct (again o); reflexivity. Qed.
Lemma sends_hush i c k : hush (sends i c k).
Proof. intros e o I. unfold sends in I. destruct k as [(n, k)|]; [|destruct I]. destruct (c_state c); try (destruct I; fail); (destruct (n_bev k); [destruct I as [<- | []]; reflexivity|destruct I]). Qed.
Lemma create_operations_watch i x x' : create_operations i x = Some x' ->
  x_nw x' = x_nw x /\ x_run x' = x_run x /\ x_names x' = x_names x /\ x_search x' = x_search x /\ x_addr x' = x_addr x /\ x_ns x' = x_ns x /\ x_nc x' = x_nc x /\ x_nn x' = x_nn x /\
  (exists l, x_out x' = x_out x ++ l /\ hush l) /\
  (forall j c', x_chans x' j = Some c' -> exists c, x_chans x j = Some c /\ c_watch c' = c_watch c /\ c_state c' = c_state c /\ c_conn c' = c_conn c /\ c_name c' = c_name c /\ c_server c' = c_server c /\ c_sid c' = c_sid c) /\
  (forall j c, x_chans x j = Some c -> exists c', x_chans x' j = Some c' /\ c_name c' = c_name c /\ c_server c' = c_server c /\ c_state c' = c_state c /\ c_conn c' = c_conn c) /\
  (forall n k', x_conns x' n = Some k' -> exists k, x_conns x n = Some k /\ k' = n_with_ops (n_ops k') k).
Proof.
  unfold create_operations. destruct (x_chans x i) as [c|] eqn:Ec; [|discriminate].
  assert (Idk : forall n k', x_conns x n = Some k' -> exists k, x_conns x n = Some k /\ k' = n_with_ops (n_ops k') k) by (intros n k' H; exists k'; split; [exact H|destruct k'; reflexivity]).
  assert (Id : x_nw x = x_nw x /\ x_run x = x_run x /\ x_names x = x_names x /\ x_search x = x_search x /\ x_addr x = x_addr x /\ x_ns x = x_ns x /\ x_nc x = x_nc x /\ x_nn x = x_nn x /\
    (exists l, x_out x = x_out x ++ l /\ hush l) /\
    (forall j c', x_chans x j = Some c' -> exists c, x_chans x j = Some c /\ c_watch c' = c_watch c /\ c_state c' = c_state c /\ c_conn c' = c_conn c /\ c_name c' = c_name c /\ c_server c' = c_server c /\ c_sid c' = c_sid c) /\
    (forall j c, x_chans x j = Some c -> exists c', x_chans x j = Some c' /\ c_name c' = c_name c /\ c_server c' = c_server c /\ c_state c' = c_state c /\ c_conn c' = c_conn c) /\
    (forall n k', x_conns x n = Some k' -> exists k, x_conns x n = Some k /\ k' = n_with_ops (n_ops k') k)).
  { repeat match goal with |- _ /\ _ => split end; auto; [exists []; rewrite app_nil_r; split; [reflexivity|apply hush_nil]|intros j c' E; exists c'; auto 10|intros j c' E; exists c'; auto 10]. }
  destruct (c_state c) eqn:Es; try (intros H; inversion H; subst; exact Id). clear Id.
  destruct (filter _ (c_pending c)) as [|o l] eqn:El.
  - intros H; inversion H; subst. cbn. repeat match goal with |- _ /\ _ => split end; auto.
    + exists []. rewrite app_nil_r. split; [reflexivity|apply hush_nil].
    + intros j c' E. apply upd_conn_cases in E. destruct E as [(-> & ->) | (N & E)]; [exists c; cbn; auto 10|exists c'; auto 10].
    + intros j d E. unfold upd. destruct (Nat.eqb_spec j i) as [-> | N]; [|exists d; auto]. rewrite Ec in E. inversion E; subst. eexists. split; [reflexivity|]. cbn. auto.
  - destruct (c_conn c) as [n|] eqn:En; [|discriminate]. destruct (x_conns x n) as [k|] eqn:Ek; [|discriminate]. destruct (n_bev k); [|discriminate].
    intros H; inversion H; subst. cbn [x_nw emit set_chan set_conn x_run x_names x_search x_addr x_ns x_nc x_nn x_out x_chans x_conns]. repeat match goal with |- _ /\ _ => split end; auto.
    + eexists. split; [reflexivity|]. apply (starts_hush n (o :: l)).
    + intros j c' E. apply upd_conn_cases in E. destruct E as [(-> & ->) | (N & E)]; [exists c; cbn; auto 10|exists c'; auto 10].
    + intros j d E. unfold upd. destruct (Nat.eqb_spec j i) as [-> | N]; [|exists d; auto]. rewrite Ec in E. inversion E; subst. eexists. split; [reflexivity|]. cbn. auto.
    + intros m k' E. apply upd_conn_cases in E. destruct E as [(-> & ->) | (N & E)]; [exists k; auto|auto].
Qed.
Lemma create_operations_other i x x' j : create_operations i x = Some x' -> j <> i -> x_chans x' j = x_chans x j.
Proof.
  unfold create_operations. intros E N. destruct (x_chans x i) as [c|] eqn:Ec; [|discriminate].
  destruct (c_state c) eqn:Es; try (inversion E; subst; reflexivity).
  destruct (filter _ (c_pending c)) as [|o l] eqn:El.
  - inversion E; subst. cbn. apply upd_other, N.
  - destruct (c_conn c) as [n|] eqn:En; [|discriminate]. destruct (x_conns x n) as [k|] eqn:Ek; [|discriminate]. destruct (n_bev k); [|discriminate].
    inversion E; subst. cbn. apply upd_other, N.
Qed.
Lemma leave_op_watch i op x x' : leave_op i op x = Some x' ->
  x_nw x' = x_nw x /\ x_run x' = x_run x /\ x_names x' = x_names x /\ x_search x' = x_search x /\ x_addr x' = x_addr x /\ x_ns x' = x_ns x /\ x_nc x' = x_nc x /\ x_nn x' = x_nn x /\
  x_out x' = x_out x /\
  (forall j c', x_chans x' j = Some c' -> exists c, x_chans x j = Some c /\ c_watch c' = c_watch c /\ c_state c' = c_state c /\ c_conn c' = c_conn c /\ c_name c' = c_name c /\ c_server c' = c_server c) /\
  (forall j c, x_chans x j = Some c -> exists c', x_chans x' j = Some c' /\ c_name c' = c_name c /\ c_server c' = c_server c) /\
  (forall n k', x_conns x' n = Some k' -> exists k, x_conns x n = Some k /\ k' = n_with_ops (n_ops k') k).
Proof.
  unfold leave_op.
  assert (Idk : forall n k', x_conns x n = Some k' -> exists k, x_conns x n = Some k /\ k' = n_with_ops (n_ops k') k) by (intros n k' H; exists k'; split; [exact H|destruct k'; reflexivity]).
  assert (Id : forall y, y = x -> x_nw y = x_nw x /\ x_run y = x_run x /\ x_names y = x_names x /\ x_search y = x_search x /\ x_addr y = x_addr x /\ x_ns y = x_ns x /\ x_nc y = x_nc x /\ x_nn y = x_nn x /\
    x_out y = x_out x /\
    (forall j c', x_chans y j = Some c' -> exists c, x_chans x j = Some c /\ c_watch c' = c_watch c /\ c_state c' = c_state c /\ c_conn c' = c_conn c /\ c_name c' = c_name c /\ c_server c' = c_server c) /\
    (forall j c, x_chans x j = Some c -> exists c', x_chans y j = Some c' /\ c_name c' = c_name c /\ c_server c' = c_server c) /\
    (forall n k', x_conns y n = Some k' -> exists k, x_conns x n = Some k /\ k' = n_with_ops (n_ops k') k)).
  { intros y ->. repeat match goal with |- _ /\ _ => split end; auto; [intros j c' E; exists c'; auto 10|intros j c' E; exists c'; auto 10]. }
  destruct (x_chans x i) as [c|] eqn:Ec; [|intros H; apply Id; congruence].
  destruct (is_in op (c_ops c)); [|intros H; apply Id; congruence]. clear Id.
  destruct (c_conn c) as [n|] eqn:En; [|discriminate]. destruct (x_conns x n) as [k|] eqn:Ek; [|discriminate].
  intros H; inversion H; subst. cbn [x_nw emit set_chan set_conn x_run x_names x_search x_addr x_ns x_nc x_nn x_out x_chans x_conns]. repeat match goal with |- _ /\ _ => split end; auto.
  - intros j c' E. apply upd_conn_cases in E. destruct E as [(-> & ->) | (N & E)]; [exists c; cbn; auto 10|exists c'; auto 10].
  - intros j d E. unfold upd. destruct (Nat.eqb_spec j i) as [-> | N]; [|exists d; auto]. rewrite Ec in E. inversion E; subst. eexists. split; [reflexivity|]. cbn. auto.
  - intros m k' E. apply upd_conn_cases in E. destruct E as [(-> & ->) | (N & E)]; [exists k; auto|auto].
Qed.
(** all handles of a channel are told *)
Definition tells (b : bool) (l : list (nat * bool)) : list out :=
  flat_map (fun w => if eqb (snd w) b then [] else [if b then OUp (fst w) else ODown (fst w)]) l.
Lemma told_tells b w l out : NoDup (map fst l) -> told_to w (out ++ tells b l) =
  match find (fun p => Nat.eqb w (fst p)) l with
  | Some (_, f) => if eqb f b then told_to w out else turn w (told_to w out) (if b then OUp w else ODown w)
  | None => told_to w out
  end.
Proof.
  intros Nd. rewrite told_app. generalize (told_to w out). induction l as [|(v, f) l IH]; intros s; cbn [tells flat_map fst snd find]; [reflexivity|].
  fold (tells b l). rewrite fold_left_app. cbn in Nd. inversion Nd; subst. rewrite IH by assumption.
  destruct (Nat.eqb_spec w v) as [-> | N].
  - assert (F : find (fun p => Nat.eqb v (fst p)) l = None).
    { destruct (find _ l) as [p|] eqn:F; [|reflexivity]. apply find_some in F. destruct F as (I & F). apply Nat.eqb_eq in F. exfalso. apply H1. rewrite F. apply in_map, I. }
    rewrite F. destruct (eqb f b); reflexivity.
  - assert (E : fold_left (turn w) (if eqb f b then [] else [if b then OUp v else ODown v]) s = s).
    { destruct (eqb f b); [reflexivity|]. cbn. apply turn_other. destruct b; cbn; apply Nat.eqb_neq, N. }
    rewrite E. reflexivity.
Qed.
Lemma ups_tells c : ups c = tells true (c_watch c).
Proof. unfold ups, tells. apply flat_map_ext. intros (w, []); reflexivity. Qed.
Lemma downs_tells c : downs c = tells false (c_watch c).
Proof. unfold downs, tells. apply flat_map_ext. intros (w, []); reflexivity. Qed.
Lemma coreC_all x x' i c b :
  coreC x -> x_chans x i = Some c -> x_nw x' = x_nw x ->
  (forall w, told_to w (x_out x') = told_to w (x_out x ++ tells b (c_watch c))) ->
  (forall j d, x_chans x' j = Some d -> (j = i /\ c_watch d = map (fun w => (fst w, b)) (c_watch c) /\ is_active d = b) \/ (j <> i /\ x_chans x j = Some d)) ->
  coreC x'.
Proof.
  intros C Ec En Eo H1. pose proof (w_nd _ C _ _ Ec) as Nd.
  assert (Mm : map fst (map (fun w : nat * bool => (fst w, b)) (c_watch c)) = map fst (c_watch c)) by (rewrite map_map; reflexivity).
  assert (Fin : forall w, (exists f, find (fun p => Nat.eqb w (fst p)) (c_watch c) = Some (w, f) /\ In (w, f) (c_watch c)) \/ (find (fun p => Nat.eqb w (fst p)) (c_watch c) = None /\ ~ In w (map fst (c_watch c)))).
  { intros w. destruct (find _ (c_watch c)) as [(v, f)|] eqn:F.
    - left. pose proof (find_some _ _ F) as (I & E). apply Nat.eqb_eq in E. cbn in E. subst v. eauto.
    - right. split; [reflexivity|]. intros I. apply in_map_iff in I. destruct I as ((v, f) & E & I). cbn in E. subst v. apply (find_none _ _ F) in I. cbn in I. rewrite Nat.eqb_refl in I. discriminate. }
  constructor.
  - intros j d w f Ed I. rewrite Eo, told_tells by exact Nd. destruct (H1 _ _ Ed) as [(-> & E1 & E2) | (N & Ed')].
    + rewrite E1 in I. apply in_map_iff in I. destruct I as ((v, g) & E & I). cbn in E. inversion E; subst v f. split; [congruence|].
      destruct (Fin w) as [(g' & F & I') | (_ & F)]; [|exfalso; apply F, (in_map fst _ (w, g)), I]. rewrite F.
      destruct (w_flag _ C _ _ _ _ Ec I') as (_ & T). rewrite T. destruct g', b; cbn; rewrite ?Nat.eqb_refl; reflexivity.
    + destruct (w_flag _ C _ _ _ _ Ed' I) as (F1 & F2). split; [exact F1|].
      destruct (Fin w) as [(g' & F & I') | (F & _)]; rewrite F; [|exact F2]. exfalso. apply N. apply (w_own _ C _ _ _ _ w Ed' Ec); [apply (in_map fst _ (w, f)), I|apply (in_map fst _ (w, g')), I'].
  - intros j j' d d' w Ed Ed' I J. destruct (H1 _ _ Ed) as [(-> & E1 & _) | (N & F)], (H1 _ _ Ed') as [(-> & F1 & _) | (N' & F')]; try reflexivity.
    + rewrite E1, Mm in I. apply (w_own _ C _ _ _ _ w Ec F' I J).
    + rewrite F1, Mm in J. apply (w_own _ C _ _ _ _ w F Ec I J).
    + apply (w_own _ C _ _ _ _ w F F' I J).
  - intros j d w Ed. rewrite En. destruct (H1 _ _ Ed) as [(-> & E1 & _) | (N & F)]; [rewrite E1, Mm; apply (w_lt _ C _ _ _ Ec)|apply (w_lt _ C _ _ _ F)].
  - intros j d Ed. destruct (H1 _ _ Ed) as [(-> & E1 & _) | (N & F)]; [rewrite E1, Mm; exact Nd|apply (w_nd _ C _ _ F)].
  - intros w. rewrite Eo, told_tells by exact Nd. destruct (Fin w) as [(g' & F & I') | (F & _)]; rewrite F; [|apply (w_all _ C)].
    destruct (w_flag _ C _ _ _ _ Ec I') as (_ & T). rewrite T. destruct g', b; cbn; rewrite ?Nat.eqb_refl; discriminate.
  - intros w L. rewrite En in L. rewrite Eo, told_tells by exact Nd. destruct (Fin w) as [(g' & F & I') | (F & _)]; rewrite F; [|apply (w_new _ C), L].
    apply (in_map fst) in I'. apply (w_lt _ C _ _ _ Ec) in I'. cbn in I'. lia.
Qed.
Lemma coreC_new_watch x i c : coreC x -> x_chans x i = Some c -> coreC (add_watch i c x).
Proof.
  intros C Ec. unfold add_watch.
  assert (Gc : forall j d, upd (x_chans x) i (Some (c_with_watch (c_watch c ++ [(x_nw x, is_active c)]) c)) j = Some d ->
     (j = i /\ d = c_with_watch (c_watch c ++ [(x_nw x, is_active c)]) c) \/ (j <> i /\ x_chans x j = Some d)) by (intros j d; apply upd_conn_cases).
  assert (Fr : forall j d, x_chans x j = Some d -> ~ In (x_nw x) (map fst (c_watch d))) by (intros j d H I; apply (w_lt _ C _ _ _ H) in I; lia).
  assert (Old : forall w, w <> x_nw x -> told_to w (x_out x ++ [if is_active c then OUp (x_nw x) else ODown (x_nw x)]) = told_to w (x_out x)).
  { intros w N. apply told_quiet. intros e [<- | []]. destruct (is_active c); cbn; apply Nat.eqb_neq, N. }
  assert (New : told_to (x_nw x) (x_out x ++ [if is_active c then OUp (x_nw x) else ODown (x_nw x)]) = Some (Some (is_active c))).
  { rewrite told_app, (w_new _ C) by lia. destruct (is_active c); cbn; rewrite Nat.eqb_refl; reflexivity. }
  constructor; cbn [x_chans emit set_chan set_next x_out x_nw].
  - intros j d w b Ed I. assert (D : (w = x_nw x /\ b = is_active c /\ j = i /\ is_active d = is_active c) \/ (exists d0, x_chans x j = Some d0 /\ In (w, b) (c_watch d0) /\ is_active d = is_active d0)).
    { apply Gc in Ed. destruct Ed as [(-> & ->) | (N & Ed)]; [|right; eauto]. cbn in I. apply in_app_iff in I. destruct I as [I | [I | []]]; [right; eauto|left]. inversion I; subst. auto. }
    destruct D as [(-> & -> & -> & ->) | (d0 & Ed0 & I0 & ->)]; [auto|].
    rewrite Old; [apply (w_flag _ C _ _ _ _ Ed0 I0)|]. intros ->. apply (Fr _ _ Ed0). apply (in_map fst _ _ I0).
  - intros j j' d d' w Ed Ed' I J. apply Gc in Ed. apply Gc in Ed'.
    destruct Ed as [(-> & ->) | (N & Ed)], Ed' as [(-> & ->) | (N' & Ed')]; auto; cbn in I, J; rewrite ?map_app, ?in_app_iff in *; cbn in *.
    + destruct I as [I | [<- | []]]; [apply (w_own _ C _ _ _ _ w Ec Ed' I J)|exfalso; apply (Fr _ _ Ed' J)].
    + destruct J as [J | [<- | []]]; [apply (w_own _ C _ _ _ _ w Ed Ec I J)|exfalso; apply (Fr _ _ Ed I)].
    + apply (w_own _ C _ _ _ _ w Ed Ed' I J).
  - intros j d w Ed I. apply Gc in Ed. destruct Ed as [(-> & ->) | (N & Ed)]; [|apply (w_lt _ C _ _ _ Ed) in I; lia]. cbn in I. rewrite map_app, in_app_iff in I. cbn in I.
    destruct I as [I | [<- | []]]; [apply (w_lt _ C _ _ _ Ec) in I|]; lia.
  - intros j d Ed. apply Gc in Ed. destruct Ed as [(-> & ->) | (N & Ed)]; [|apply (w_nd _ C _ _ Ed)]. cbn. rewrite map_app. cbn.
    apply nodup_both; [apply (w_nd _ C _ _ Ec)|constructor; [intros []|constructor]|]. intros w I [<- | []]. apply (Fr _ _ Ec I).
  - intros w. destruct (Nat.eq_dec w (x_nw x)) as [-> | N]; [rewrite New; discriminate|rewrite Old by exact N; apply (w_all _ C)].
  - intros w L. rewrite Old by lia. apply (w_new _ C). lia.
Qed.
Lemma coreC_unwatch x i w c : coreC x -> x_chans x i = Some c ->
  coreC (set_chan i (Some (c_with_watch (filter (fun p => negb (Nat.eqb w (fst p))) (c_watch c)) c)) x).
Proof.
  intros C Ec.
  assert (Gc : forall j d, x_chans (set_chan i (Some (c_with_watch (filter (fun p => negb (Nat.eqb w (fst p))) (c_watch c)) c)) x) j = Some d ->
     exists d0, x_chans x j = Some d0 /\ is_active d = is_active d0 /\ (forall p, In p (c_watch d) -> In p (c_watch d0)) /\ (NoDup (map fst (c_watch d0)) -> NoDup (map fst (c_watch d)))).
  { intros j d H. cbn in H. apply upd_conn_cases in H. destruct H as [(-> & ->) | (N & H)]; [|eauto 8]. exists c. split; [exact Ec|]. split; [reflexivity|]. split; [|apply nodup_filter].
    cbn. intros p I. apply filter_In in I. apply I. }
  assert (Gm : forall (a b : channel) v, (forall p, In p (c_watch a) -> In p (c_watch b)) -> In v (map fst (c_watch a)) -> In v (map fst (c_watch b))).
  { intros a b v H I. apply in_map_iff in I. destruct I as (p & <- & I). apply in_map, H, I. }
  constructor; cbn [x_out x_nw set_chan].
  - intros j d v b Ed I. destruct (Gc _ _ Ed) as (d0 & E0 & -> & H & _). apply (w_flag _ C _ _ _ _ E0 (H _ I)).
  - intros j j' d d' v Ed Ed' I J. destruct (Gc _ _ Ed) as (d0 & E0 & _ & H & _), (Gc _ _ Ed') as (d1 & F0 & _ & H' & _). apply (w_own _ C _ _ _ _ v E0 F0); eauto.
  - intros j d v Ed I. destruct (Gc _ _ Ed) as (d0 & E0 & _ & H & _). apply (w_lt _ C _ _ _ E0); eauto.
  - intros j d Ed. destruct (Gc _ _ Ed) as (d0 & E0 & _ & _ & H). apply H, (w_nd _ C _ _ E0).
  - apply (w_all _ C).
  - apply (w_new _ C).
Qed.
Lemma is_active_state c d : c_state c = c_state d -> is_active c = is_active d.
Proof. unfold is_active. intros ->. reflexivity. Qed.
Theorem coreC_prim h e1 e2 e3 x y : coreC x -> prim h e1 e2 e3 x y -> coreC y.
Proof.
  intros C P. destruct P as
   [a r ok x' n Hr Ha E | i n c k Ec Es Ek Ea Hr | i n c k Ec Es En Ek Hb Hr | again i c Ec Hk He | i | i Hp | name server Hr Hn He
   | i c x' Ec E | i op x' E | i op x' E | i c Ec | i w c Ec | n x' E | n k s t r Ek He Hs | a | n k Ek Ho He | i n c k Ec Es En Ek | i n sid c k x2 c2 Ec Es En Ek Hb Ns E E2
   | n ok x' Hh E | l Hl Nd | n k Ek | l Hl | | i c Ec Hh Es En | n k Ek Hu Ha | l Hl | n k Ek];
   try (apply (coreC_rest x); auto; fail).
  - unfold build_conn in E. rewrite Hr in E. cbn [negb] in E. rewrite Ha in E. destruct (r || ok); inversion E; subst; clear E.
    apply (coreC_same x); auto.
    + eexists. split; [reflexivity|]. destruct r; [apply hush_nil|]. intros e o [<- | []]. reflexivity.
    + intros i c E. exists c. cbn in E. auto.
  - unfold attach1. apply (coreC_chan _ i c); auto; [apply (coreC_rest x); auto|unfold is_active; rewrite Es; reflexivity].
  - unfold creating1. apply coreC_emit; [|intros e o [<- | []]; reflexivity].
    apply (coreC_chan _ i c); auto; [apply (coreC_rest x); auto|unfold is_active; rewrite Es; reflexivity].
  - apply (coreC_all x _ i c false C Ec).
    + unfold disc. destruct (conn_of x c) as [(n, k)|]; reflexivity.
    + intros w. unfold disc. cbn [emit x_out]. rewrite <- downs_tells.
      replace (x_out (set_chan i (Some (gone again c)) match conn_of x c with Some (n, k) => set_conn n (Some (left_ i c k)) x | None => x end)) with (x_out x)
        by (destruct (conn_of x c) as [(n, k)|]; reflexivity).
      rewrite !app_assoc. rewrite told_quiet by (intros e I; apply (losts_hush _ _ _ _ I)).
      rewrite !told_app. f_equal. rewrite <- told_app. apply told_quiet. intros e I. apply (sends_hush _ _ _ _ _ I).
    + intros j d H. unfold disc in H. cbn in H. apply upd_conn_cases in H. destruct H as [(-> & ->) | (N & H)]; [left; auto|right; split; [exact N|]]. destruct (conn_of x c) as [(n, k)|]; exact H.
  - destruct C. assert (Gc : forall j d, x_chans (newchan name server x) j = Some d -> c_watch d = [] \/ x_chans x j = Some d).
    { intros j d H. cbn in H. apply upd_conn_cases in H. destruct H as [(-> & ->) | (_ & H)]; auto. }
    constructor; try assumption.
    + intros j d w b Ed I. apply Gc in Ed. destruct Ed as [Ed | Ed]; [rewrite Ed in I; destruct I|]. apply (w_flag0 _ _ _ _ Ed I).
    + intros j j' d d' w Ed Ed' I J. apply Gc in Ed. apply Gc in Ed'. destruct Ed as [Ed | Ed]; [rewrite Ed in I; destruct I|]. destruct Ed' as [Ed' | Ed']; [rewrite Ed' in J; destruct J|]. eauto.
    + intros j d w Ed I. apply Gc in Ed. destruct Ed as [Ed | Ed]; [rewrite Ed in I; destruct I|]. apply (w_lt0 _ _ _ Ed I).
    + intros j d Ed. apply Gc in Ed. destruct Ed as [Ed | Ed]; [rewrite Ed; constructor|eauto].
  - destruct (create_operations_watch _ _ _ E) as (H1 & H2 & H3 & H4 & H5 & H6 & H7 & H8 & (l & H9 & Hl) & H10 & H11 & H12).
    apply (coreC_same (add_op i c x)); [|exact H1|eauto|].
    + apply (coreC_chan _ i c); auto. apply (coreC_rest x); auto.
    + intros j d Ed. destruct (H10 _ _ Ed) as (c0 & E0 & F1 & F2 & _). exists c0. split; [exact E0|]. split; [exact F1|apply is_active_state, F2].
  - unfold drop_op, bind in E. destruct (leave_op i op x) as [x1|] eqn:E1; [|discriminate].
    destruct (leave_op_watch _ _ _ _ E1) as (H1 & H2 & H3 & H4 & H5 & H6 & H7 & H8 & H9 & H10 & H11 & H12).
    assert (C1 : coreC x1). { apply (coreC_same x); auto; [exists []; rewrite app_nil_r; split; [exact H9|apply hush_nil]|]. intros j d Ed. destruct (H10 _ _ Ed) as (c0 & E0 & F1 & F2 & _). exists c0. split; [exact E0|]. split; [exact F1|apply is_active_state, F2]. }
    destruct (x_chans x1 i) as [c|] eqn:Ec; inversion E; subst; [|exact C1]. apply (coreC_chan _ i c); auto.
  - unfold end_op, bind in E. destruct (x_chans x i) as [c|]; [|inversion E; subst; exact C]. destruct (is_in op (c_ops c)); [|inversion E; subst; exact C].
    destruct (leave_op i op x) as [x1|] eqn:E1; [|discriminate].
    destruct (leave_op_watch _ _ _ _ E1) as (H1 & H2 & H3 & H4 & H5 & H6 & H7 & H8 & H9 & H10 & H11 & H12). inversion E; subst.
    apply coreC_emit; [|intros e w [<- | []]; reflexivity].
    apply (coreC_same x); auto; [exists []; rewrite app_nil_r; split; [exact H9|apply hush_nil]|]. intros j d Ed. destruct (H10 _ _ Ed) as (c0 & E0 & F1 & F2 & _). exists c0. split; [exact E0|]. split; [exact F1|apply is_active_state, F2].
  - apply coreC_new_watch; assumption.
  - apply coreC_unwatch; assumption.
  - unfold tcp_up in E. destruct (x_conns x n) as [k|] eqn:Ek; [|inversion E; subst; exact C].
    destruct (n_state k); try (inversion E; subst; exact C). destruct (n_bev k); inversion E; subst; [|exact C]. apply (coreC_rest x); auto.
  - unfold refused1. match goal with |- coreC (set_search _ ?z) => apply (coreC_rest z); auto end.
    apply (coreC_chan _ i c); auto; [apply (coreC_rest x); auto|unfold is_active; rewrite Es; reflexivity].
  - destruct (create_operations_watch _ _ _ E) as (H1 & H2 & H3 & H4 & H5 & H6 & H7 & H8 & (l & H9 & Hl) & H10 & H11 & H12).
    destruct (H10 _ _ E2) as (c0 & E0 & F1 & F2 & _). cbn in E0. rewrite upd_same in E0. inversion E0; subst c0. cbn in F1, F2.
    apply (coreC_all x _ i c true C Ec).
    + exact H1.
    + intros w. cbn [told emit x_out set_chan]. rewrite H9, ups_tells, F1. rewrite !told_app. f_equal. rewrite <- told_app. apply told_quiet. intros e I. apply Hl, I.
    + intros j d H. cbn [told emit x_chans set_chan] in H. apply upd_conn_cases in H. destruct H as [(-> & ->) | (N & H)]; [left; cbn; rewrite F1; split; [reflexivity|split; [reflexivity|unfold is_active; cbn; rewrite F2; reflexivity]]|right].
      split; [exact N|]. rewrite (create_operations_other _ _ _ j E N) in H. cbn in H. rewrite upd_other in H by exact N. exact H.
  - unfold tick in E. destruct (x_conns x n) as [k|] eqn:Ek; [|inversion E; subst; exact C]. destruct (n_timer k); [|inversion E; subst; exact C].
    destruct (n_state k); try (inversion E; subst; apply coreC_emit; [exact C|]; destruct (n_bev k); [intros e o [<- | []]; reflexivity|apply hush_nil]).
    destruct ok; inversion E; subst; [apply coreC_emit; [|intros e o [<- | []]; reflexivity]|]; apply (coreC_rest x); auto.
  - apply (coreC_same x); auto; [exists []; rewrite app_nil_r; split; [reflexivity|apply hush_nil]|].
    intros j d H. cbn in H. unfold upd in H. destruct (Nat.eqb_spec j i); [discriminate|]. eauto.
  - apply coreC_emit; [exact C|apply plain_hush, Hl].
Qed.
