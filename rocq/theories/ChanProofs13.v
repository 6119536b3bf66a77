(** After close(). *)
From Coq Require Import ZArith List Bool Arith Lia.
From Verif Require Import Base BaseProofs ChanModel ChanSpec ChanProofs ChanProofs2 ChanProofs3 ChanProofs4 ChanProofs5 ChanProofs6 ChanProofs7 ChanProofs8 ChanProofs9 ChanProofs10 ChanProofs11 ChanProofs12.
Import ListNotations.

Definition dead (k : conn) : Prop := n_bev k = false /\ n_timer k = false.
Definition quiet (x : ctx) : Prop := x_run x = false /\ forall n k, x_conns x n = Some k -> dead k.
(** With the worker stopped no connection is made, and none gets alive. *)
Definition dim (x y : ctx) : Prop := x_run x = false -> x_run y = false /\ forall m k', x_conns y m = Some k' -> exists k, x_conns x m = Some k /\ (dead k -> dead k').
Definition adds (x y : ctx) : Prop := exists l, x_out y = x_out x ++ l /\ Forall silent l.
Definition calm (x y : ctx) : Prop := dim x y /\ (quiet x -> adds x y).
Lemma dim_quiet x y : dim x y -> quiet x -> quiet y.
Proof. intros D (Q1 & Q2). destruct (D Q1) as (R & H). split; [exact R|]. intros n k E. destruct (H n k E) as (k0 & E0 & Hk). apply Hk, (Q2 _ _ E0). Qed.
Lemma dim_refl x : dim x x.
Proof. intros R. split; [exact R|]. intros m k E. exists k. auto. Qed.
Lemma dim_trans x y z : dim x y -> dim y z -> dim x z.
Proof.
  intros A B R. destruct (A R) as (R1 & H1), (B R1) as (R2 & H2). split; [exact R2|]. intros m k E. destruct (H2 m k E) as (k1 & E1 & F1). destruct (H1 m k1 E1) as (k0 & E0 & F0). exists k0. auto.
Qed.
Lemma dim_same x y : x_run y = x_run x -> x_conns y = x_conns x -> dim x y.
Proof. intros E1 E2 R. split; [congruence|]. intros m k E. rewrite E2 in E. exists k. auto. Qed.
Lemma dim_conn x y n k0 k : x_run y = x_run x -> x_conns y = upd (x_conns x) n (Some k) -> x_conns x n = Some k0 -> (dead k0 -> dead k) -> dim x y.
Proof.
  intros E1 E2 E0 Hk R. split; [congruence|]. intros m q E. rewrite E2 in E. apply upd_conn_cases in E. destruct E as [(-> & ->) | (N & E)]; [exists k0; auto|exists q; auto].
Qed.
Lemma adds_same x y : x_out y = x_out x -> adds x y.
Proof. intros E. exists []. rewrite E, app_nil_r. split; [reflexivity|constructor]. Qed.
Lemma adds_trans x y z : adds x y -> adds y z -> adds x z.
Proof. intros (l & A1 & A2) (m & B1 & B2). exists (l ++ m). rewrite B1, A1, app_assoc. split; [reflexivity|apply Forall_app; auto]. Qed.
Lemma calm_refl x : calm x x.
Proof. split; [apply dim_refl|]. intros _. apply adds_same; reflexivity. Qed.
Lemma calm_trans x y z : calm x y -> calm y z -> calm x z.
Proof. intros (A1 & A2) (B1 & B2). split; [apply (dim_trans _ _ _ A1 B1)|]. intros Q. apply (adds_trans _ y); [apply A2, Q|apply B2, (dim_quiet _ _ A1 Q)]. Qed.
Lemma calm_same x y : x_run y = x_run x -> x_conns y = x_conns x -> x_out y = x_out x -> calm x y.
Proof. intros E1 E2 L. split; [apply dim_same; assumption|]. intros _. apply adds_same, L. Qed.
Lemma calm_conn x y n k0 k : x_run y = x_run x -> x_conns y = upd (x_conns x) n (Some k) -> x_conns x n = Some k0 -> (dead k0 -> dead k) -> x_out y = x_out x -> calm x y.
Proof. intros E1 E2 E3 Hk L. split; [apply (dim_conn x y n k0 k); assumption|]. intros _. apply adds_same, L. Qed.
Lemma calm_each {A} (f : A -> ctx -> option ctx) l : (forall a x y, In a l -> f a x = Some y -> calm x y) -> forall x y, each f l x = Some y -> calm x y.
Proof.
  induction l as [|a l IH]; intros H x y E; cbn [each] in E; [inversion E; apply calm_refl|]. destruct (f a x) as [z|] eqn:Ez; [|discriminate]. cbn [ChanModel.bind] in E.
  apply (calm_trans _ z); [apply (H a); [left; reflexivity|exact Ez]|apply IH; [|exact E]]. intros b u v I. apply H. right. exact I.
Qed.
Lemma calm_create_one n i x y : create_one n i x = Some y -> calm x y.
Proof.
  unfold create_one. destruct (x_conns x n) as [k|] eqn:Ek; [|discriminate].
  assert (H : forall p c s, calm x (set_conn n (Some (n_with_lists p c s k)) x)) by (intros p c s; eapply (calm_conn x _ n k); [reflexivity|reflexivity|exact Ek|auto|reflexivity]).
  destruct (x_chans x i) as [c|]; [|intros E; inversion E; apply H]. destruct (c_state c); try (intros E; inversion E; apply H).
  destruct (n_bev k) eqn:Bk; [|discriminate]. intros E. inversion E; subst. split.
  - eapply (dim_conn x _ n k); [reflexivity|reflexivity|exact Ek|auto].
  - intros (_ & Q). destruct (Q _ _ Ek). congruence.
Qed.
Lemma calm_create_channels n x y : create_channels n x = Some y -> calm x y.
Proof.
  unfold create_channels. destruct (x_conns x n) as [k|]; [|discriminate]. destruct (n_ready k); [|intros E; inversion E; apply calm_refl]. apply calm_each. intros i u v _. apply calm_create_one.
Qed.
Lemma calm_attach i n x y : attach i n x = Some y -> calm x y.
Proof.
  unfold attach. destruct (x_chans x i) as [c|]; [|discriminate]. destruct (x_conns x n) as [k|] eqn:Ek; [|discriminate]. intros E. eapply calm_trans; [|apply (calm_create_channels _ _ _ E)].
  eapply (calm_conn x _ n k); [reflexivity|reflexivity|exact Ek|auto|reflexivity].
Qed.
(** build_conn() makes none *)
Lemma build_stopped a r ok x : x_run x = false -> build_conn a r ok x = (x, None).
Proof. unfold build_conn. intros ->. reflexivity. Qed.
Lemma calm_disc again i c x : calm x (disc again i c (conn_of x c) x).
Proof.
  unfold conn_of. destruct (c_conn c) as [n|]; [destruct (x_conns x n) as [k|] eqn:Ek|]; cbn [option_map]; split.
  - apply (dim_conn x _ n k (left_ i c k)); [reflexivity|reflexivity|exact Ek|]. intros (D1 & D2). unfold left_, leave. destruct (c_state c); split; assumption.
  - intros (_ & Q). destruct (Q _ _ Ek) as (D1 & _). exists (sends i c (Some (n, k)) ++ downs c ++ losts again c). split; [reflexivity|]. unfold sends. rewrite D1. apply Forall_app. split; [destruct (c_state c); constructor|].
    apply Forall_app. split; apply Forall_forall; intros e I.
    + apply in_flat_map in I. destruct I as (w & _ & I). destruct (snd w); [destruct I as [<- | []]; exact Logic.I|destruct I].
    + apply in_map_iff in I. destruct I as (o & <- & _). destruct (again o); exact Logic.I.
  - apply dim_same; reflexivity.
  - intros _. exists (downs c ++ losts again c). split; [reflexivity|]. apply Forall_app. split; apply Forall_forall; intros e I.
    + apply in_flat_map in I. destruct I as (w & _ & I). destruct (snd w); [destruct I as [<- | []]; exact Logic.I|destruct I].
    + apply in_map_iff in I. destruct I as (o & <- & _). destruct (again o); exact Logic.I.
  - apply dim_same; reflexivity.
  - intros _. exists (downs c ++ losts again c). split; [reflexivity|]. apply Forall_app. split; apply Forall_forall; intros e I.
    + apply in_flat_map in I. destruct I as (w & _ & I). destruct (snd w); [destruct I as [<- | []]; exact Logic.I|destruct I].
    + apply in_map_iff in I. destruct I as (o & <- & _). destruct (again o); exact Logic.I.
Qed.
Lemma calm_disconnect self again i x y : x_run x = false -> disconnect self again i x = Some y -> calm x y.
Proof.
  intros R. unfold disconnect. destruct (x_chans x i) as [c|] eqn:Ec; [|discriminate]. fold (conn_of x c). set (k := conn_of x c). intros E.
  assert (E' : (if negb self then Some (disc again i c k x) else match c_server c with
               | None => Some (set_search (x_search (disc again i c k x) ++ [i]) (disc again i c k x))
               | Some a => match build_conn a true true (disc again i c k x) with (x3, Some n) => attach i n x3 | (x3, None) => Some x3 end
               end) = Some y) by (destruct k as [(n, k')|]; destruct (c_state c) eqn:Es; try discriminate; (rewrite <- E; unfold disc, sends, downs, losts, gone, alive, left_; rewrite ?Es; reflexivity)).
  clear E. pose proof (calm_disc again i c x) as N0. fold k in N0. set (u := disc again i c k x) in *.
  destruct (negb self); [inversion E'; subst y; exact N0|]. apply (calm_trans _ u _ N0). destruct (c_server c) as [a|]; [|inversion E'; apply calm_same; reflexivity].
  rewrite build_stopped in E'; [inversion E'; apply calm_refl|]. apply (proj1 N0 R).
Qed.
Lemma dim_run x y : calm x y -> x_run x = false -> x_run y = false.
Proof. intros (D & _) R. apply (D R). Qed.
Lemma calm_each_run {A} (f : A -> ctx -> option ctx) l : (forall a x y, In a l -> x_run x = false -> f a x = Some y -> calm x y) -> forall x y, x_run x = false -> each f l x = Some y -> calm x y.
Proof.
  induction l as [|a l IH]; intros H x y R E; cbn [each] in E; [inversion E; apply calm_refl|]. destruct (f a x) as [z|] eqn:Ez; [|discriminate]. cbn [ChanModel.bind] in E.
  assert (C : calm x z) by (apply (H a); [left; reflexivity|exact R|exact Ez]). apply (calm_trans _ z _ C). apply IH; [|apply (dim_run _ _ C R)|exact E]. intros b u v I. apply H. right. exact I.
Qed.
Lemma calm_cleanup again n x y : x_run x = false -> cleanup again n x = Some y -> calm x y /\ (forall k, x_conns y n = Some k -> dead k).
Proof.
  intros R. unfold cleanup. destruct (x_conns x n) as [k|] eqn:Ek; [|discriminate]. set (x1 := set_conn n _ _). set (todo := filter _ _). destruct (each _ todo x1) as [u|] eqn:Eu; [|discriminate]. cbn [ChanModel.bind].
  destruct (x_conns u n) as [k2|] eqn:Ek2; [|discriminate]. destruct (n_ops k2); [|discriminate]. intros E.
  assert (C1 : calm x x1) by (eapply (calm_conn x x1 n k); [reflexivity|reflexivity|exact Ek|intros _; split; reflexivity|reflexivity]).
  assert (C2 : calm x1 u). { apply (calm_each_run (fun i x => disconnect true again i x) todo); [|exact R|exact Eu]. intros i v w _ Rv. apply calm_disconnect, Rv. }
  assert (D2 : dead k2).
  { destruct (proj1 C2 R) as (_ & H). destruct (H n k2 Ek2) as (k1 & E1 & Hd). apply Hd. cbn in E1. rewrite upd_same in E1. inversion E1. split; reflexivity. }
  inversion E; subst y. split; [apply (calm_trans _ x1 _ C1), (calm_trans _ u _ C2); eapply (calm_conn u _ n k2); [reflexivity|reflexivity|exact Ek2|auto|reflexivity]|].
  intros q Eq. cbn in Eq. rewrite upd_same in Eq. inversion Eq. exact D2.
Qed.
Lemma calm_free_chan i x y : x_run x = false -> free_chan i x = Some y -> calm x y.
Proof.
  intros R. unfold free_chan. destruct (x_chans x i) as [c|]; [|intros E; inversion E; apply calm_refl]. destruct (held x i c); [intros E; inversion E; apply calm_refl|].
  destruct (disconnect _ _ _ _) as [u|] eqn:Eu; [|discriminate]. cbn [option_map]. intros E. inversion E; subst. apply (calm_trans _ u); [apply (calm_disconnect _ _ _ _ _ R Eu)|apply calm_same; reflexivity].
Qed.
Lemma calm_free_conn n x y : x_run x = false -> free_conn n x = Some y -> calm x y.
Proof.
  intros R. unfold free_conn. destruct (x_conns x n) as [k|] eqn:Ek; [|intros E; inversion E; apply calm_refl]. destruct (used x n); [intros E; inversion E; apply calm_refl|].
  destruct (cleanup _ _ _) as [u|] eqn:Eu; [|discriminate]. cbn [option_map]. intros E. inversion E; subst. apply (calm_trans _ u); [apply (calm_cleanup _ _ _ _ R Eu)|]. split; [|intros _; apply adds_same; reflexivity].
  intros Ru. split; [exact Ru|]. intros m k' E'. cbn in E'. unfold upd in E'. destruct (Nat.eqb m n); [discriminate|]. exists k'. auto.
Qed.
Lemma calm_collect x y : x_run x = false -> collect x = Some y -> calm x y.
Proof.
  intros R. unfold collect. destruct (each free_chan _ x) as [u|] eqn:Eu; [|discriminate]. cbn [ChanModel.bind]. intros E.
  assert (C : calm x u) by (apply (calm_each_run free_chan (seq 0 (x_nc x))); [intros i v w _; apply calm_free_chan|exact R|exact Eu]).
  apply (calm_trans _ u _ C). apply (calm_each_run free_conn (seq 0 (x_nn u))); [intros i v w _; apply calm_free_conn|apply (dim_run _ _ C R)|exact E].
Qed.
Lemma calm_leave_op i op x y : leave_op i op x = Some y -> calm x y.
Proof.
  unfold leave_op. destruct (x_chans x i) as [c|]; [|intros E; inversion E; apply calm_refl]. destruct (is_in op (c_ops c)); [|intros E; inversion E; apply calm_refl]. destruct (c_conn c) as [n|]; [|discriminate].
  destruct (x_conns x n) as [k|] eqn:Ek; [|discriminate]. intros E. inversion E; subst. eapply (calm_conn x _ n k); [reflexivity|reflexivity|exact Ek|auto|reflexivity].
Qed.
Lemma ns_stopped ok after : forall before x, x_run x = false -> ns_check ok before after x = Some x.
Proof.
  induction after as [|(a, o) l IH]; intros before x R; cbn [ns_check]; [reflexivity|]. destruct (match o with Some n => _ | None => false end); [apply IH, R|]. rewrite (build_stopped _ _ _ _ R). reflexivity.
Qed.
Lemma open_dead k : dead k -> open k = false.
Proof. intros (D & _). unfold open. rewrite D. reflexivity. Qed.
(** Names are forgotten by close() *)
Lemma calm_step e x y : fine false x -> honest x e -> quiet x -> x_names x = [] -> step x e = Some y -> adds x y /\ quiet y /\ x_names y = [].
Proof.
  intros G Hh Q Hn E. pose proof Q as (R & Q2). unfold step in E. destruct (handle e x) as [u|] eqn:Eu; [|discriminate]. cbn [ChanModel.bind] in E.
  assert (C : adds x u /\ quiet u /\ x_names u = []).
  { assert (Same : Some x = Some u -> adds x u /\ quiet u /\ x_names u = []) by (intros E'; inversion E'; subst; split; [apply adds_same; reflexivity|auto]).
    destruct e as [name server ok|i op|i op|name server ok|i w|i a ok|i|n|n|n v again|n i sid ok|n sid again|n ok|name a again|ok|again]; cbn [handle] in Eu.
    - unfold exec, build_chan in Eu. rewrite R in Eu. cbn [negb ChanModel.bind] in Eu. auto.
    - unfold drop_op in Eu. destruct (leave_op i op x) as [v|] eqn:Ev; [|discriminate]. cbn [ChanModel.bind] in Eu. pose proof (calm_leave_op _ _ _ _ Ev) as C.
      assert (Nv : x_names v = x_names x). { clear - Ev. unfold leave_op in Ev. destruct (x_chans x i) as [c|]; [|inversion Ev; reflexivity]. destruct (is_in op (c_ops c)); [|inversion Ev; reflexivity]. destruct (c_conn c) as [n|]; [|discriminate]. destruct (x_conns x n); [|discriminate]. inversion Ev. reflexivity. }
      assert (calm v u /\ x_names u = x_names v) as (C2 & Nu). { destruct (x_chans v i); inversion Eu; (split; [|reflexivity]); [apply calm_same; reflexivity|apply calm_refl]. }
      pose proof (calm_trans _ _ _ C C2) as (D & A). split; [apply A, Q|]. split; [apply (dim_quiet _ _ D Q)|congruence].
    - unfold end_op in Eu. destruct (x_chans x i) as [c|] eqn:Ec; [|auto]. destruct (is_in op (c_ops c)); [|auto]. destruct (leave_op i op x) as [v|] eqn:Ev; [|discriminate]. cbn [ChanModel.bind] in Eu. inversion Eu; subst u.
      assert (Nv : x_names v = x_names x). { clear - Ev. unfold leave_op in Ev. destruct (x_chans x i) as [c|]; [|inversion Ev; reflexivity]. destruct (is_in op (c_ops c)); [|inversion Ev; reflexivity]. destruct (c_conn c) as [n|]; [|discriminate]. destruct (x_conns x n); [|discriminate]. inversion Ev. reflexivity. }
      destruct (calm_leave_op _ _ _ _ Ev) as (D & A). destruct (dim_quiet _ _ D Q) as (Qv & Qv2). split; [apply (adds_trans _ v); [apply A, Q|]; exists [OEnd op]; split; [reflexivity|repeat constructor]|]. split; [split; [exact Qv|exact Qv2]|cbn; congruence].
    - unfold watch, build_chan in Eu. rewrite R in Eu. cbn [negb ChanModel.bind] in Eu. auto.
    - destruct (x_chans x i) as [c|]; [|auto]. inversion Eu; subst u. split; [apply adds_same; reflexivity|]. split; [split; [exact R|exact Q2]|exact Hn].
    - unfold found in Eu. destruct (x_chans x i) as [c|]; [|auto]. destruct (c_state c); try (apply Same; exact Eu). rewrite (build_stopped _ _ _ _ R) in Eu. auto.
    - destruct (x_chans x i) as [c|]; [destruct (c_state c)|]; try (apply Same; exact Eu); inversion Eu; subst u; (split; [apply adds_same; reflexivity|]; split; [split; [exact R|exact Q2]|exact Hn]).
    - unfold tcp_up in Eu. destruct (x_conns x n) as [k|] eqn:Ek; [|auto]. destruct (Q2 _ _ Ek) as (D1 & _). rewrite D1 in Eu. destruct (n_state k); auto.
    - unfold validated in Eu. destruct (x_conns x n) as [k|] eqn:Ek; [|auto]. rewrite (open_dead _ (Q2 _ _ Ek)) in Eu. auto.
    - unfold lost in Eu. destruct (x_conns x n) as [k|] eqn:Ek; [|auto]. destruct (Q2 _ _ Ek) as (D1 & _). rewrite D1 in Eu. auto.
    - unfold created in Eu. destruct (x_conns x n) as [k|] eqn:Ek; [|auto]. rewrite (open_dead _ (Q2 _ _ Ek)) in Eu. auto.
    - unfold destroyed in Eu. destruct (x_conns x n) as [k|] eqn:Ek; [|auto]. rewrite (open_dead _ (Q2 _ _ Ek)) in Eu. auto.
    - unfold tick in Eu. destruct (x_conns x n) as [k|] eqn:Ek; [|auto]. destruct (Q2 _ _ Ek) as (_ & D1). rewrite D1 in Eu. auto.
    - unfold clean in Eu. rewrite Hn in Eu. cbn [each] in Eu. auto.
    - rewrite (ns_stopped _ _ _ _ R) in Eu. auto.
    - unfold close in Eu. rewrite R in Eu. cbn [negb] in Eu. auto. }
  destruct C as (A & Qu & Nu). destruct (calm_collect u y (proj1 Qu) E) as (D & A2). split; [apply (adds_trans _ u _ A), A2, Qu|]. split; [apply (dim_quiet _ _ D Qu)|].
  destruct (handle_good false e x G Hh ltac:(discriminate)) as (u' & Eu' & Gu). assert (u' = u) by congruence. subst u'. destruct (collect_good false u Gu) as (z & Ez & _ & Kz). assert (z = y) by congruence. subst z.
  rewrite (k_names _ _ Kz). exact Nu.
Qed.
Lemma calm_run es : forall x y, fine false x -> honest_run x es -> quiet x -> x_names x = [] -> run x es = Some y -> adds x y /\ quiet y.
Proof.
  induction es as [|e es IH]; intros x y G H Q Hn E; cbn [run] in E; [inversion E; split; [apply adds_same; reflexivity|congruence]|]. destruct (step x e) as [z|] eqn:Ez; [|discriminate]. cbn [ChanModel.bind] in E.
  destruct H as (H1 & H2). destruct (calm_step e x z G H1 Q Hn Ez) as (A & Qz & Nz). destruct (step_good false e x G H1 ltac:(discriminate)) as (z' & Ez' & Gz). assert (z' = z) by congruence. subst z'.
  destruct (IH z y Gz (H2 z Ez) Qz Nz E) as (B & Qy). split; [apply (adds_trans _ z _ A B)|exact Qy].
Qed.
(** close() ends all connections which are registered. *)
Lemma close_quiet again x y : fine false x -> x_run x = true -> (forall n k, x_conns x n = Some k -> x_addr x (n_addr k) = Some n \/ dead k) -> step x (EClose again) = Some y -> quiet y /\ x_names y = [].
Proof.
  intros G Hr Hk E. unfold step in E. cbn [handle] in E. unfold close in E. rewrite Hr in E. cbn [negb] in E.
  set (l := filter (fun n => match x_conns x n with Some k => match x_addr x (n_addr k) with Some m => Nat.eqb n m | None => false end | None => false end) (seq 0 (x_nn x))) in *.
  assert (L : forall l u v, each (cleanup again) l u = Some v -> x_run u = false -> dim u v /\ forall n k, In n l -> x_conns v n = Some k -> dead k).
  { clear. induction l as [|n l IH]; intros u v E R; cbn [each] in E; [inversion E; subst; split; [apply dim_refl|intros n k []]|]. destruct (cleanup again n u) as [w|] eqn:Ew; [|discriminate]. cbn [ChanModel.bind] in E.
    destruct (calm_cleanup _ _ _ _ R Ew) as ((D & _) & H). destruct (IH w v E (proj1 (D R))) as (D2 & H2). split; [apply (dim_trans _ w _ D D2)|]. intros m k [-> | I] Em; [|apply (H2 m k I Em)].
    destruct (proj2 (D2 (proj1 (D R))) m k Em) as (k1 & E1 & Hd). apply Hd, (H k1 E1). }
  destruct (each (cleanup again) l (stop x)) as [v|] eqn:Ev; [|discriminate]. cbn [ChanModel.bind] in E. destruct (L l _ _ Ev eq_refl) as (D & Hl). destruct (D eq_refl) as (Rv & Dv).
  assert (Qv : quiet (set_ns [] (set_names [] v))).
  { split; [exact Rv|]. intros n k Ek. cbn in Ek. destruct (Dv n k Ek) as (k0 & E0 & Hd). cbn in E0. destruct (Hk n k0 E0) as [Ha | Hdead]; [|apply Hd, Hdead]. apply (Hl n k); [|exact Ek].
    unfold l. apply filter_In. split; [apply in_seq; pose proof (a_conn _ (gA _ _ _ _ _ G) _ _ E0); lia|]. rewrite E0, Ha. apply Nat.eqb_refl. }
  destruct (close_good false again x G) as (u & Eu & Gu). unfold close in Eu. rewrite Hr in Eu. cbn [negb] in Eu. fold l in Eu. rewrite Ev in Eu. cbn [ChanModel.bind] in Eu. inversion Eu; subst u.
  destruct (collect_good false _ Gu) as (z & Ez & _ & Kz). assert (z = y) by congruence. subst z. destruct (calm_collect _ y (proj1 Qv) E) as (D2 & _). split; [apply (dim_quiet _ _ D2 Qv)|]. rewrite (k_names _ _ Kz). reflexivity.
Qed.
Lemma close_ends again l : forall u v, fine false u -> each (cleanup again) l u = Some v -> fine false v /\ noact u v /\ forall n i c, In n l -> x_chans v i = Some c -> c_state c = Active -> c_conn c <> Some n.
Proof.
  induction l as [|n l IH]; intros u v G E; cbn [each] in E; [inversion E; subst; split; [exact G|]; split; [apply noact_refl|intros n i c []]|].
  destruct (cleanup again n u) as [w|] eqn:Ew; [|discriminate]. cbn [ChanModel.bind] in E. destruct (x_conns u n) as [k|] eqn:Ek; [|unfold cleanup in Ew; rewrite Ek in Ew; discriminate].
  destruct (cleanup_good false again n k u G Ek) as (w' & Ew' & Gw & S & _). assert (w' = w) by congruence. subst w'. destruct (IH w v Gw E) as (Gv & N & H). split; [exact Gv|]. pose proof (noact_cleanup _ _ _ _ Ew) as N1.
  split; [apply (noact_trans _ w _ N1 N)|]. intros m i c [<- | I] Ec A En; [|apply (H m i c I Ec A En)]. destruct (N i c Ec A) as (d & Ed & Ad & Cd). pose proof (s_gone _ _ _ S i d Ed ltac:(congruence)). congruence.
Qed.
Lemma close_off again x y n k i c : fine false x -> x_run x = true -> step x (EClose again) = Some y -> x_conns x n = Some k -> x_addr x (n_addr k) = Some n -> x_chans x i = Some c -> c_conn c = Some n ->
  forall c', x_chans y i = Some c' -> c_state c' <> Active.
Proof.
  intros G Hr E Ek Ha Ec En c' Ec' A. destruct (close_good false again x G) as (u & Eu & Gu). unfold step in E. cbn [handle] in E. rewrite Eu in E. cbn [ChanModel.bind] in E. destruct (collect_good false u Gu) as (z & Ez & _ & Kz). assert (z = y) by congruence. subst z.
  unfold close in Eu. rewrite Hr in Eu. cbn [negb] in Eu. set (l := filter _ _) in Eu. destruct (each (cleanup again) l (stop x)) as [v|] eqn:Ev; [|discriminate]. cbn [ChanModel.bind] in Eu. inversion Eu; subst u.
  assert (G1 : fine false (stop x)) by (apply (good_prim false None None None x); [exact G|apply P_stop]). destruct (close_ends again l (stop x) v G1 Ev) as (_ & N & H). pose proof (k_less _ _ Kz _ _ Ec') as Eu'. cbn in Eu'.
  destruct (N i c' Eu' A) as (d & Ed & Ad & Cd). cbn in Ed. assert (d = c) by congruence. subst d. apply (H n i c'); [|exact Eu'|exact A|congruence].
  unfold l. apply filter_In. split; [apply in_seq; pose proof (a_conn _ (gA _ _ _ _ _ G) _ _ Ek); lia|]. rewrite Ek, Ha. apply Nat.eqb_refl.
Qed.
