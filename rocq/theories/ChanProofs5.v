(** Names of channels, the state of connections, and channels which are searched for. *)
From Coq Require Import ZArith List Bool Arith Lia.
From Verif Require Import Base BaseProofs ChanModel ChanSpec ChanProofs ChanProofs2 ChanProofs3 ChanProofs4.
Import ListNotations.

Lemma key_eqb_eq a b : key_eqb a b = true <-> a = b.
Proof.
  unfold key_eqb. destruct a as (s, o), b as (t, p). cbn. rewrite andb_true_iff, str_eqb_eq. split.
  - intros (-> & H). destruct o as [o|], p as [p|]; try discriminate; [|reflexivity]. apply Z.eqb_eq in H. congruence.
  - intros H. inversion H; subst. split; [reflexivity|]. destruct p; [apply Z.eqb_refl|reflexivity].
Qed.
Lemma find_name_none k l : find_name k l = None -> ~ In k (map fst l).
Proof.
  unfold find_name. destruct (find _ l) eqn:F; [discriminate|]. intros _ I. apply in_map_iff in I. destruct I as (p & <- & I).
  apply (find_none _ _ F) in I. cbn in I. rewrite (proj2 (key_eqb_eq _ _) eq_refl) in I. discriminate.
Qed.
Lemma find_name_some k l i : find_name k l = Some i -> In (k, i) l.
Proof.
  unfold find_name. destruct (find _ l) as [(q, j)|] eqn:F; [|discriminate]. apply find_some in F. destruct F as (I & E). apply key_eqb_eq in E. cbn in *.
  intros H. inversion H; subst. exact I.
Qed.
Record coreD (x : ctx) : Prop := {
  d_in : forall key i, In (key, i) (x_names x) -> exists c, x_chans x i = Some c /\ key = (c_name c, c_server c);
  d_nd : NoDup (map fst (x_names x))
}.
Lemma coreD_same x x' : coreD x -> x_names x' = x_names x ->
  (forall i c, x_chans x i = Some c -> exists c', x_chans x' i = Some c' /\ c_name c' = c_name c /\ c_server c' = c_server c) -> coreD x'.
Proof.
  intros [H1 H2] En H. constructor; rewrite En; [|exact H2]. intros key i I. destruct (H1 _ _ I) as (c & Ec & ->). destruct (H _ _ Ec) as (c' & Ec' & E1 & E2). exists c'. split; [exact Ec'|congruence].
Qed.
Lemma coreD_chan x i c c' : coreD x -> x_chans x i = Some c -> c_name c' = c_name c -> c_server c' = c_server c -> coreD (set_chan i (Some c') x).
Proof.
  intros D Ec E1 E2. apply (coreD_same x); auto. intros j d H. cbn. unfold upd. destruct (Nat.eqb_spec j i) as [-> | N]; [|eauto]. rewrite Ec in H. inversion H; subst. eauto.
Qed.
Lemma coreD_rest x x' : coreD x -> x_names x' = x_names x -> x_chans x' = x_chans x -> coreD x'.
Proof. intros D E1 E2. apply (coreD_same x); auto. intros i c H. rewrite E2. eauto. Qed.
Theorem coreD_prim h e1 e2 e3 x y : coreA x -> coreD x -> prim h e1 e2 e3 x y -> coreD y.
Proof.
  intros A D P. destruct P as
   [a r ok x' n Hr Ha E | i n c k Ec Es Ek Ea Hr | i n c k Ec Es En Ek Hb Hr | again i c Ec Hk He | i | i Hp | name server Hr Hn He
   | i c x' Ec E | i op x' E | i op x' E | i c Ec | i w c Ec | n x' E | n k s t r Ek He Hs | a | n k Ek Ho He | i n c k Ec Es En Ek | i n sid c k x2 c2 Ec Es En Ek Hb Ns E E2
   | n ok x' Hh E | l Hl Nd | n k Ek | l Hl | | i c Ec Hh Es En | n k Ek Hu Ha | l Hl | n k Ek];
   try (apply (coreD_rest x); auto; fail); try (apply (coreD_chan x i c); auto; fail).
  - unfold build_conn in E. rewrite Hr in E. cbn [negb] in E. rewrite Ha in E. destruct (r || ok); inversion E; subst; clear E. apply (coreD_rest x); auto.
  - unfold attach1. apply (coreD_chan _ i c); auto. apply (coreD_rest x); auto.
  - unfold creating1. match goal with |- coreD (emit _ ?z) => apply (coreD_rest z); auto end. apply (coreD_chan _ i c); auto. apply (coreD_rest x); auto.
  - unfold disc. match goal with |- coreD (emit _ ?z) => apply (coreD_rest z); auto end. destruct (conn_of x c) as [(n, k)|]; apply (coreD_chan _ i c); auto. apply (coreD_rest x); auto.
  - destruct D as [H1 H2]. constructor; cbn.
    + intros key i I. apply in_app_iff in I. destruct I as [I | [I | []]].
      * destruct (H1 _ _ I) as (c & Ec & ->). exists c. rewrite upd_other; [auto|]. intros ->. apply (a_chan _ A) in Ec. lia.
      * inversion I; subst. eexists. rewrite upd_same. split; reflexivity.
    + rewrite map_app. cbn. apply nodup_both; [exact H2|constructor; [intros []|constructor]|]. intros k I [<- | []]. apply (find_name_none _ _ Hn I).
  - destruct (create_operations_watch _ _ _ E) as (H1 & H2 & H3 & H4 & H5 & H6 & H7 & H8 & (l & H9 & Hl) & H10 & H11 & H12).
    apply (coreD_same (add_op i c x)); [|exact H3|]; [unfold add_op; apply (coreD_chan _ i c); auto; apply (coreD_rest x); auto|].
    intros j d Ed. destruct (H11 _ _ Ed) as (c' & Ec' & F1 & F2 & _). eauto.
  - unfold drop_op, bind in E. destruct (leave_op i op x) as [x1|] eqn:E1; [|discriminate].
    destruct (leave_op_watch _ _ _ _ E1) as (H1 & H2 & H3 & H4 & H5 & H6 & H7 & H8 & H9 & H10 & H11 & H12).
    assert (D1 : coreD x1) by (apply (coreD_same x); auto). destruct (x_chans x1 i) as [c|] eqn:Ec; inversion E; subst; [|exact D1]. apply (coreD_chan _ i c); auto.
  - unfold end_op, bind in E. destruct (x_chans x i) as [c|]; [|inversion E; subst; exact D]. destruct (is_in op (c_ops c)); [|inversion E; subst; exact D].
    destruct (leave_op i op x) as [x1|] eqn:E1; [|discriminate].
    destruct (leave_op_watch _ _ _ _ E1) as (H1 & H2 & H3 & H4 & H5 & H6 & H7 & H8 & H9 & H10 & H11 & H12). inversion E; subst.
    apply (coreD_same x); auto.
  - unfold add_watch. match goal with |- coreD (emit _ ?z) => apply (coreD_rest z); auto end. apply (coreD_chan _ i c); auto. apply (coreD_rest x); auto.
  - unfold tcp_up in E. destruct (x_conns x n) as [k|] eqn:Ek; [|inversion E; subst; exact D].
    destruct (n_state k); try (inversion E; subst; exact D). destruct (n_bev k); inversion E; subst; [|exact D]. apply (coreD_rest x); auto.
  - unfold refused1. match goal with |- coreD (set_search _ ?z) => apply (coreD_rest z); auto end. apply (coreD_chan _ i c); auto. apply (coreD_rest x); auto.
  - destruct (create_operations_watch _ _ _ E) as (H1 & H2 & H3 & H4 & H5 & H6 & H7 & H8 & (l & H9 & Hl) & H10 & H11 & H12).
    unfold told. match goal with |- coreD (emit _ ?z) => apply (coreD_rest z); auto end. apply (coreD_chan _ i c2); auto.
    apply (coreD_same (active1 i n sid c k x)); [|exact H3|]; [unfold active1; apply (coreD_chan _ i c); auto; apply (coreD_rest x); auto|].
    intros j d Ed. destruct (H11 _ _ Ed) as (c' & Ec' & F1 & F2 & _). eauto.
  - unfold tick in E. destruct (x_conns x n) as [k|] eqn:Ek; [|inversion E; subst; exact D]. destruct (n_timer k); [|inversion E; subst; exact D].
    destruct (n_state k); try (inversion E; subst; apply (coreD_rest x); auto; fail). destruct ok; inversion E; subst; apply (coreD_rest x); auto.
  - destruct D as [H1 H2]. constructor; [|exact Nd]. intros key i I. apply H1, Hl, I.
  - unfold held in Hh. rewrite !orb_false_iff in Hh. destruct Hh as ((F & _) & _). destruct D as [H1 H2]. constructor; [|exact H2].
    intros key j I. destruct (H1 _ _ I) as (d & Ed & ->). exists d. cbn. rewrite upd_other; [auto|]. intros ->.
    assert (T : existsb (fun p => Nat.eqb i (snd p)) (x_names x) = true) by (apply existsb_exists; eexists; split; [exact I|apply Nat.eqb_refl]). congruence.
Qed.

(** ** Connections *)
Definition ready_soon (k : conn) : Prop := n_state k = Holdoff /\ n_timer k = true.
Definition fit (h : bool) (e2 e3 : option nat) (reg : Prop) (n : nat) (k : conn) : Prop :=
  (e2 <> Some n -> n_ready k = true -> n_bev k = true) /\
  (e2 <> Some n -> n_bev k = false -> n_creating k = [] /\ n_bysid k = []) /\
  (e3 <> Some n -> n_ready k = true -> n_pending k = []) /\
  (h = true -> e2 <> Some n -> n_bev k = false -> ready_soon k \/ n_pending k = []) /\
  (n_bev k = true -> n_state k = Opening \/ n_state k = Connected) /\
  (h = true -> reg -> n_bev k = true \/ ready_soon k).
Record coreF (h : bool) (e2 e3 : option nat) (x : ctx) : Prop := {
  f_fit : forall n k, x_conns x n = Some k -> fit h e2 e3 (exists a, x_addr x a = Some n) n k;
  f_un : forall n, e2 = Some n -> n < x_nn x /\ forall a, x_addr x a <> Some n
}.
Definition fewer (k k' : conn) : Prop :=
  (n_pending k = [] -> n_pending k' = []) /\ (n_creating k = [] -> n_creating k' = []) /\ (n_bysid k = [] -> n_bysid k' = []).
Lemma fit_less h e2 e3 (r r' : Prop) n k k' : fit h e2 e3 r n k -> same_tcp k k' -> fewer k k' -> (r' -> r) -> fit h e2 e3 r' n k'.
Proof.
  intros (F1 & F2 & F3 & F4 & F5 & F6) (E1 & E2 & E3 & E4 & E5 & E6) (L1 & L2 & L3) R. unfold fit, ready_soon in *. rewrite E2, E3, E4, E5.
  split; [exact F1|]. split; [intros H1 H2; destruct (F2 H1 H2); auto|]. split; [auto|]. split; [intros H0 H1 H2; destruct (F4 H0 H1 H2); auto|]. split; [exact F5|]. auto.
Qed.
Lemma coreF_same h e2 e3 x x' : coreF h e2 e3 x -> x_nn x' = x_nn x -> (forall a n, x_addr x' a = Some n -> x_addr x a = Some n) ->
  (forall n k', x_conns x' n = Some k' -> exists k, x_conns x n = Some k /\ same_tcp k k' /\ fewer k k') -> coreF h e2 e3 x'.
Proof.
  intros [F1 F2] E1 E2 H. constructor.
  - intros n k' Hk. destruct (H _ _ Hk) as (k & Ek & T & L). apply (fit_less h e2 e3 (exists a, x_addr x a = Some n) _ n k k' (F1 _ _ Ek) T L). intros (a & Ha). exists a. auto.
  - intros n En. destruct (F2 _ En) as (L & U). rewrite E1. split; [exact L|]. intros a Ha. apply (U a). auto.
Qed.
Lemma fewer_refl k : fewer k k.
Proof. repeat split; auto. Qed.
Lemma coreF_rest h e2 e3 x x' : coreF h e2 e3 x -> x_nn x' = x_nn x -> x_addr x' = x_addr x -> x_conns x' = x_conns x -> coreF h e2 e3 x'.
Proof. intros F E1 E2 E3. apply (coreF_same h e2 e3 x); auto; [rewrite E2; auto|]. intros n k H. rewrite E3 in H. exists k. split; [exact H|]. split; [apply same_tcp_refl|apply fewer_refl]. Qed.
Lemma coreF_conn h e2 e3 x n k : coreF h e2 e3 x -> fit h e2 e3 (exists a, x_addr x a = Some n) n k -> coreF h e2 e3 (set_conn n (Some k) x).
Proof.
  intros [F1 F2] H. constructor; [|exact F2]. intros m q Hq. cbn in Hq. apply upd_conn_cases in Hq. destruct Hq as [(-> & ->) | (N & Hq)]; [exact H|apply (F1 _ _ Hq)].
Qed.
Lemma coreF_less h e2 e3 x n k k' : coreF h e2 e3 x -> x_conns x n = Some k -> same_tcp k k' -> fewer k k' -> coreF h e2 e3 (set_conn n (Some k') x).
Proof. intros F Ek T L. apply coreF_conn; [exact F|]. apply (fit_less h e2 e3 _ _ n k k' (f_fit _ _ _ _ F _ _ Ek) T L). auto. Qed.
Lemma without_nil i l : l = [] -> without i l = [].
Proof. intros ->. reflexivity. Qed.
Theorem coreF_prim h e1 e2 e3 x y : coreA x -> coreF h e2 e3 x -> prim h e1 e2 e3 x y -> coreF h e2 e3 y.
Proof.
  intros A F P. destruct P as
   [a r ok x' n Hr Ha E | i n c k Ec Es Ek Ea Hr | i n c k Ec Es En Ek Hb Hr | again i c Ec Hk He | i | i Hp | name server Hr Hn He
   | i c x' Ec E | i op x' E | i op x' E | i c Ec | i w c Ec | n x' E | n k s t r Ek He Hs | a | n k Ek Ho He | i n c k Ec Es En Ek | i n sid c k x2 c2 Ec Es En Ek Hb Ns E E2
   | n ok x' Hh E | l Hl Nd | n k Ek | l Hl | | i c Ec Hh Es En | n k Ek Hu Ha | l Hl | n k Ek];
   try (apply (coreF_rest h e2 e3 x); auto; fail).
  - unfold build_conn in E. rewrite Hr in E. cbn [negb] in E. rewrite Ha in E. destruct (r || ok); inversion E; subst; clear E.
    constructor.
    + intros n k Hk. cbn [x_conns set_addr set_conn set_next emit] in Hk. apply upd_conn_cases in Hk. destruct Hk as [(-> & ->) | (N & Hk)].
      * unfold fit, ready_soon, new_conn. cbn. destruct r; cbn; intuition discriminate.
      * apply (fit_less h e2 e3 (exists a, x_addr x a = Some n) _ n k k (f_fit _ _ _ _ F _ _ Hk) (same_tcp_refl k) (fewer_refl k)).
        intros (b & Hb). cbn in Hb. destruct (Z.eqb b a); [congruence|eauto].
    + intros n En. destruct (f_un _ _ _ _ F _ En) as (L & U). cbn. split; [lia|]. intros b. destruct (Z.eqb b a); [|apply U]. intros H. inversion H. lia.
  - unfold attach1. match goal with |- coreF _ _ _ (set_chan _ _ ?z) => apply (coreF_rest h e2 e3 z); auto end. apply coreF_conn; [exact F|].
    destruct (f_fit _ _ _ _ F _ _ Ek) as (F1 & F2 & F3 & F4 & F5 & F6). assert (R : exists a, x_addr x a = Some n) by eauto.
    unfold fit, ready_soon in *. cbn. split; [exact F1|]. split; [exact F2|]. split; [intros N Rd; specialize (Hr Rd); contradiction|]. split; [|split; [exact F5|exact F6]].
    intros H0 H1 H2. left. destruct (F6 H0 R) as [B | B]; [congruence|exact B].
  - unfold creating1. match goal with |- coreF _ _ _ (emit _ (set_chan _ _ ?z)) => apply (coreF_rest h e2 e3 z); auto end. apply coreF_conn; [exact F|].
    destruct (f_fit _ _ _ _ F _ _ Ek) as (F1 & F2 & F3 & F4 & F5 & F6). unfold fit, ready_soon in *. cbn. rewrite Hb in *.
    split; [auto|]. split; [discriminate|]. split; [intros N Rd; apply without_nil; auto|]. split; [discriminate|]. split; [exact F5|exact F6].
  - unfold disc. match goal with |- coreF _ _ _ (emit _ (set_chan _ _ ?z)) => apply (coreF_rest h e2 e3 z); auto end.
    unfold conn_of. destruct (c_conn c) as [n|] eqn:En; [|exact F]. destruct (x_conns x n) as [k|] eqn:Ek; [|exact F]. cbn [option_map].
    apply (coreF_less h e2 e3 x n k); auto.
    + unfold left_, leave. destruct (c_state c); repeat split.
    + unfold left_, leave, fewer. destruct (c_state c); cbn; repeat split; auto; try apply without_nil. intros ->. reflexivity.
  - destruct (create_operations_watch _ _ _ E) as (H1 & H2 & H3 & H4 & H5 & H6 & H7 & H8 & (l & H9 & Hl) & H10 & H11 & H12).
    apply (coreF_same h e2 e3 x); auto; [rewrite H5; auto|]. intros n k' Hk. destruct (H12 _ _ Hk) as (k & Ek & Eq). exists k. split; [exact Ek|]. rewrite Eq. split; [repeat split|repeat split; cbn; auto].
  - unfold drop_op, bind in E. destruct (leave_op i op x) as [x1|] eqn:E1; [|discriminate].
    destruct (leave_op_watch _ _ _ _ E1) as (H1 & H2 & H3 & H4 & H5 & H6 & H7 & H8 & H9 & H10 & H11 & H12).
    assert (F1 : coreF h e2 e3 x1). { apply (coreF_same h e2 e3 x); auto; [rewrite H5; auto|]. intros n k' Hk. destruct (H12 _ _ Hk) as (k & Ek & Eq). exists k. split; [exact Ek|]. rewrite Eq. split; [repeat split|repeat split; cbn; auto]. }
    destruct (x_chans x1 i) as [c|] eqn:Ec; inversion E; subst; [|exact F1]. apply (coreF_rest h e2 e3 x1); auto.
  - unfold end_op, bind in E. destruct (x_chans x i) as [c|]; [|inversion E; subst; exact F]. destruct (is_in op (c_ops c)); [|inversion E; subst; exact F].
    destruct (leave_op i op x) as [x1|] eqn:E1; [|discriminate].
    destruct (leave_op_watch _ _ _ _ E1) as (H1 & H2 & H3 & H4 & H5 & H6 & H7 & H8 & H9 & H10 & H11 & H12). inversion E; subst.
    apply (coreF_same h e2 e3 x); auto; [rewrite <- H5; auto|]. intros n k' Hk. destruct (H12 _ _ Hk) as (k & Ek & Eq). exists k. split; [exact Ek|]. rewrite Eq. split; [repeat split|repeat split; cbn; auto].
  - unfold tcp_up in E. destruct (x_conns x n) as [k|] eqn:Ek; [|inversion E; subst; exact F].
    destruct (n_state k) eqn:Sk; try (inversion E; subst; exact F). destruct (n_bev k) eqn:Bk; inversion E; subst; [|exact F]. apply coreF_conn; [exact F|].
    destruct (f_fit _ _ _ _ F _ _ Ek) as (F1 & F2 & F3 & F4 & F5 & F6). unfold fit, ready_soon in *. cbn. intuition discriminate.
  - apply coreF_conn; [exact F|]. destruct (f_un _ _ _ _ F _ He) as (_ & U). destruct (f_fit _ _ _ _ F _ _ Ek) as (F1 & F2 & F3 & F4 & F5 & F6). unfold fit, ready_soon in *. cbn.
    split; [congruence|]. split; [congruence|]. split; [auto|]. split; [congruence|]. split; [discriminate|]. intros _ (a & Ha). exfalso. apply (U a Ha).
  - apply (coreF_same h e2 e3 x); auto; cbn.
    + intros b n. destruct (Z.eqb b a); [discriminate|auto].
    + intros n k H. exists k. split; [exact H|]. split; [apply same_tcp_refl|apply fewer_refl].
  - apply coreF_conn; [exact F|]. destruct (f_fit _ _ _ _ F _ _ Ek) as (F1 & F2 & F3 & F4 & F5 & F6). unfold open in Ho. apply andb_true_iff in Ho. destruct Ho as (Hb & Hc).
    unfold fit, ready_soon in *. cbn. rewrite Hb in *. split; [auto|]. split; [discriminate|]. split; [congruence|]. split; [discriminate|]. auto.
  - unfold refused1. match goal with |- coreF _ _ _ (set_search _ (set_chan _ _ ?z)) => apply (coreF_rest h e2 e3 z); auto end. apply (coreF_less h e2 e3 x n k); auto.
    + repeat split.
    + repeat split; cbn; auto. apply without_nil.
  - destruct (create_operations_watch _ _ _ E) as (H1 & H2 & H3 & H4 & H5 & H6 & H7 & H8 & (l & H9 & Hl) & H10 & H11 & H12).
    unfold told. match goal with |- coreF _ _ _ (emit _ (set_chan _ _ ?z)) => apply (coreF_rest h e2 e3 z); auto end.
    apply (coreF_same h e2 e3 (active1 i n sid c k x)); auto; [|rewrite H5; auto|].
    + unfold active1. match goal with |- coreF _ _ _ (set_chan _ _ ?z) => apply (coreF_rest h e2 e3 z); auto end. apply coreF_conn; [exact F|].
      destruct (f_fit _ _ _ _ F _ _ Ek) as (F1 & F2 & F3 & F4 & F5 & F6). unfold fit, ready_soon in *. cbn. rewrite Hb in *. split; [auto|]. split; [discriminate|]. split; [auto|]. split; [discriminate|]. auto.
    + intros m k' Hk. destruct (H12 _ _ Hk) as (q & Ek' & Eq). exists q. split; [exact Ek'|]. rewrite Eq. split; [repeat split|repeat split; cbn; auto].
  - unfold tick in E. destruct (x_conns x n) as [k|] eqn:Ek; [|inversion E; subst; exact F]. destruct (n_timer k); [|inversion E; subst; exact F].
    destruct (n_state k) eqn:Sk; try (inversion E; subst; apply (coreF_rest h e2 e3 x); auto; fail).
    destruct (f_fit _ _ _ _ F _ _ Ek) as (F1 & F2 & F3 & F4 & F5 & F6).
    destruct ok; inversion E; subst; clear E.
    + match goal with |- coreF _ _ _ (emit _ ?z) => apply (coreF_rest h e2 e3 z); auto end. apply coreF_conn; [exact F|].
      unfold fit, ready_soon in *. cbn. split; [auto|]. split; [discriminate|]. split; [auto|]. split; [discriminate|]. auto.
    + apply coreF_conn; [exact F|]. assert (h = false) by (destruct h; [specialize (Hh eq_refl); discriminate|reflexivity]). subst h.
      assert (Bk : n_bev k = false) by (destruct (n_bev k); [destruct (F5 eq_refl); congruence|reflexivity]).
      unfold fit, ready_soon in *. cbn. rewrite Bk in *. split; [auto|]. split; [auto|]. split; [auto|]. split; [discriminate|]. split; [discriminate|]. discriminate.
  - apply coreF_conn; [exact F|]. exact (f_fit _ _ _ _ F _ _ Ek).
  - apply (coreF_same h e2 e3 x); auto; cbn; [discriminate|]. intros n k H. exists k. split; [exact H|]. split; [apply same_tcp_refl|apply fewer_refl].
  - apply (coreF_same h e2 e3 x); auto; cbn. intros m k' H. unfold upd in H. destruct (Nat.eqb_spec m n); [discriminate|]. exists k'. split; [exact H|]. split; [apply same_tcp_refl|apply fewer_refl].
  - apply (coreF_less h e2 e3 x n k); auto; [apply same_tcp_refl|apply fewer_refl].
Qed.
(** ** Channels which are searched for *)
Definition coreE (h : bool) (e1 : option nat) (x : ctx) : Prop :=
  h = true -> x_run x = true -> forall i c, x_chans x i = Some c -> c_state c = Searching -> e1 <> Some i -> In i (x_search x).
Lemma coreE_same h e1 x x' : coreE h e1 x -> x_run x' = x_run x -> (forall i, In i (x_search x) -> In i (x_search x')) ->
  (forall i c', x_chans x' i = Some c' -> c_state c' = Searching -> e1 <> Some i -> exists c, x_chans x i = Some c /\ c_state c = Searching) -> coreE h e1 x'.
Proof. intros E E1 E2 H Hh Hr i c' Ec' Es N. rewrite E1 in Hr. destruct (H _ _ Ec' Es N) as (c & Ec & Sc). apply E2. apply (E Hh Hr _ _ Ec Sc N). Qed.
Lemma coreE_rest h e1 x x' : coreE h e1 x -> x_run x' = x_run x -> x_search x' = x_search x -> x_chans x' = x_chans x -> coreE h e1 x'.
Proof. intros E E1 E2 E3. apply (coreE_same h e1 x); auto; [rewrite E2; auto|]. intros i c H Hs _. rewrite E3 in H. eauto. Qed.
Lemma coreE_chan h e1 x i c c' : coreE h e1 x -> x_chans x i = Some c -> (c_state c' = Searching -> c_state c = Searching) -> coreE h e1 (set_chan i (Some c') x).
Proof.
  intros E Ec H. apply (coreE_same h e1 x); auto. intros j d Hd Sd _. cbn in Hd. apply upd_conn_cases in Hd. destruct Hd as [(-> & ->) | (N & Hd)]; eauto.
Qed.
Theorem coreE_prim h e1 e2 e3 x y : coreE h e1 x -> prim h e1 e2 e3 x y -> coreE h e1 y.
Proof.
  intros Q P. destruct P as
   [a r ok x' n Hr Ha E | i n c k Ec Es Ek Ea Hr | i n c k Ec Es En Ek Hb Hr | again i c Ec Hk He | i | i Hp | name server Hr Hn He
   | i c x' Ec E | i op x' E | i op x' E | i c Ec | i w c Ec | n x' E | n k s t r Ek He Hs | a | n k Ek Ho He | i n c k Ec Es En Ek | i n sid c k x2 c2 Ec Es En Ek Hb Ns E E2
   | n ok x' Hh E | l Hl Nd | n k Ek | l Hl | | i c Ec Hh Es En | n k Ek Hu Ha | l Hl | n k Ek];
   try (apply (coreE_rest h e1 x); auto; fail); try (apply (coreE_chan h e1 x i c); auto; fail).
  - unfold build_conn in E. rewrite Hr in E. cbn [negb] in E. rewrite Ha in E. destruct (r || ok); inversion E; subst; clear E. apply (coreE_rest h e1 x); auto.
  - unfold creating1. match goal with |- coreE _ _ (emit _ ?z) => apply (coreE_rest h e1 z); auto end. apply (coreE_chan h e1 _ i c); auto; cbn; discriminate.
  - apply (coreE_same h e1 x); auto.
    + unfold disc. destruct (conn_of x c) as [(n, k)|]; reflexivity.
    + intros j I. unfold disc. destruct (conn_of x c) as [(n, k)|]; exact I.
    + intros j d H Sd N. unfold disc in H. cbn in H. apply upd_conn_cases in H. destruct H as [(-> & ->) | (_ & H)]; [contradiction|]. exists d. split; [|exact Sd]. destruct (conn_of x c) as [(n, k)|]; exact H.
  - apply (coreE_same h e1 x); auto; cbn; [intros j I; apply in_app_iff; auto|]. eauto.
  - intros Hh Hr j d Ed Sd N. cbn in *. apply in_without. split; [|apply (Q Hh Hr _ _ Ed Sd N)]. intros ->. apply (Hp _ Ed Sd).
  - apply (coreE_same h e1 x); auto. intros j d H Sd N. cbn in H. apply upd_conn_cases in H. destruct H as [(-> & ->) | (_ & H)]; [contradiction|eauto].
  - destruct (create_operations_watch _ _ _ E) as (H1 & H2 & H3 & H4 & H5 & H6 & H7 & H8 & (l & H9 & Hl) & H10 & H11 & H12).
    apply (coreE_same h e1 (add_op i c x)); auto; [|rewrite H4; auto|].
    + unfold add_op. apply (coreE_chan h e1 _ i c); auto.
    + intros j d Ed Sd _. destruct (H10 _ _ Ed) as (c0 & E0 & F1 & F2 & _). exists c0. split; [exact E0|congruence].
  - unfold drop_op, bind in E. destruct (leave_op i op x) as [x1|] eqn:E1; [|discriminate].
    destruct (leave_op_watch _ _ _ _ E1) as (H1 & H2 & H3 & H4 & H5 & H6 & H7 & H8 & H9 & H10 & H11 & H12).
    assert (Q1 : coreE h e1 x1). { apply (coreE_same h e1 x); auto; [rewrite H4; auto|]. intros j d Ed Sd _. destruct (H10 _ _ Ed) as (c0 & E0 & F1 & F2 & _). exists c0. split; [exact E0|congruence]. }
    destruct (x_chans x1 i) as [c|] eqn:Ec; inversion E; subst; [|exact Q1]. apply (coreE_chan h e1 x1 i c); auto.
  - unfold end_op, bind in E. destruct (x_chans x i) as [c|]; [|inversion E; subst; exact Q]. destruct (is_in op (c_ops c)); [|inversion E; subst; exact Q].
    destruct (leave_op i op x) as [x1|] eqn:E1; [|discriminate].
    destruct (leave_op_watch _ _ _ _ E1) as (H1 & H2 & H3 & H4 & H5 & H6 & H7 & H8 & H9 & H10 & H11 & H12). inversion E; subst.
    apply (coreE_same h e1 x); auto; [cbn; rewrite H4; auto|]. intros j d Ed Sd _. destruct (H10 _ _ Ed) as (c0 & E0 & F1 & F2 & _). exists c0. split; [exact E0|congruence].
  - unfold tcp_up in E. destruct (x_conns x n) as [k|] eqn:Ek; [|inversion E; subst; exact Q].
    destruct (n_state k); try (inversion E; subst; exact Q). destruct (n_bev k); inversion E; subst; [|exact Q]. apply (coreE_rest h e1 x); auto.
  - intros Hh Hr j d Ed Sd N. cbn in *. apply in_app_iff. apply upd_conn_cases in Ed. destruct Ed as [(-> & ->) | (_ & Ed)]; [right; left; reflexivity|left]. apply (Q Hh Hr _ _ Ed Sd N).
  - destruct (create_operations_watch _ _ _ E) as (H1 & H2 & H3 & H4 & H5 & H6 & H7 & H8 & (l & H9 & Hl) & H10 & H11 & H12).
    unfold told. match goal with |- coreE _ _ (emit _ ?z) => apply (coreE_rest h e1 z); auto end. apply (coreE_chan h e1 _ i c2); auto.
    apply (coreE_same h e1 (active1 i n sid c k x)); auto; [|rewrite H4; auto|].
    + unfold active1. apply (coreE_chan h e1 _ i c); auto; discriminate.
    + intros j d Ed Sd _. destruct (H10 _ _ Ed) as (c0 & E0 & F1 & F2 & _). exists c0. split; [exact E0|congruence].
  - unfold tick in E. destruct (x_conns x n) as [k|] eqn:Ek; [|inversion E; subst; exact Q]. destruct (n_timer k); [|inversion E; subst; exact Q].
    destruct (n_state k); try (inversion E; subst; apply (coreE_rest h e1 x); auto; fail). destruct ok; inversion E; subst; apply (coreE_rest h e1 x); auto.
  - intros Hh Hr. discriminate.
  - apply (coreE_same h e1 x); auto. intros j d H Sd _. cbn in H. unfold upd in H. destruct (Nat.eqb_spec j i); [discriminate|eauto].
Qed.
