(** All events. *)
From Coq Require Import ZArith List Bool Arith Lia.
From Verif Require Import Base BaseProofs ChanModel ChanSpec ChanProofs ChanProofs2 ChanProofs3 ChanProofs4 ChanProofs5 ChanProofs6.
Import ListNotations.

Notation fine h := (good h None None None).
(** ** Destructors *)
Record kept (x x' : ctx) : Prop := {
  k_run : x_run x' = x_run x; k_names : x_names x' = x_names x; k_ns : x_ns x' = x_ns x;
  k_held : forall j c, x_chans x j = Some c -> held x j c = true -> x_chans x' j = Some c;
  k_less : forall j c, x_chans x' j = Some c -> x_chans x j = Some c;
  k_conns : forall n k', x_conns x' n = Some k' -> exists k, x_conns x n = Some k /\ same_tcp k k'
}.
Lemma kept_refl x : kept x x.
Proof. constructor; auto. intros n k E. exists k. split; [exact E|]. repeat split. Qed.
Lemma held_kept x x' j c : x_names x' = x_names x -> held x' j c = held x j c.
Proof. unfold held. intros ->. reflexivity. Qed.
Lemma kept_trans x y z : kept x y -> kept y z -> kept x z.
Proof.
  intros [A1 A2 A3 A4 A5 A6] [B1 B2 B3 B4 B5 B6]. constructor; try congruence; auto.
  - intros j c Ec Hh. apply B4; [apply A4; assumption|]. rewrite (held_kept x y j c A2). exact Hh.
  - intros n k2 E2. destruct (B6 _ _ E2) as (k1 & E1 & T1), (A6 _ _ E1) as (k0 & E0 & T0). exists k0. split; [exact E0|]. unfold same_tcp in *. intuition congruence.
Qed.
Lemma held_same x i c d : c_refs d = c_refs c -> map fst (c_watch d) = map fst (c_watch c) -> held x i d = held x i c.
Proof.
  intros E1 E2. unfold held. rewrite E1. f_equal. destruct (c_watch c), (c_watch d); cbn in E2; congruence || reflexivity.
Qed.
Lemma free_chan_good h i x : fine h x -> exists x', free_chan i x = Some x' /\ fine h x' /\ kept x x'.
Proof.
  intros G. unfold free_chan. destruct (x_chans x i) as [c|] eqn:Ec; [|exists x; split; [reflexivity|split; [exact G|apply kept_refl]]].
  destruct (held x i c) eqn:Hh; [exists x; split; [reflexivity|split; [exact G|apply kept_refl]]|].
  rewrite (disconnect_eq false (fun _ => false) i c x (gA _ _ _ _ _ G) Ec). cbn [negb option_map].
  pose proof (disc_good h (fun _ => false) None i c x G Ec) as G1. pose proof (disc_fr (fun _ => false) i c x (gA _ _ _ _ _ G) Ec) as F1.
  pose proof (disc_chan (fun _ => false) i c (conn_of x c) x) as E1. set (y := disc (fun _ => false) i c (conn_of x c) x) in *.
  eexists. split; [reflexivity|]. split.
  - apply (good_no_e1 h i None None).
    + apply (good_prim h (Some i) None None y); [exact G1|]. apply (P_free_chan _ _ _ _ y i (gone (fun _ => false) c)); auto.
      rewrite (held_same y i c); [|reflexivity|cbn; rewrite map_map; apply map_ext; reflexivity]. rewrite (held_kept x y i c); [exact Hh|apply (r_names _ _ _ F1)].
    + intros _ _ d Ed. cbn in Ed. rewrite upd_same in Ed. discriminate.
  - constructor; cbn.
    + apply (r_run _ _ _ F1).
    + apply (r_names _ _ _ F1).
    + apply (r_ns _ _ _ F1).
    + intros j d Ed Hd. assert (N : j <> i) by (intros ->; congruence). rewrite upd_other by exact N. unfold y, disc. cbn. rewrite upd_other by exact N. destruct (conn_of x c) as [(n, k)|]; exact Ed.
    + intros j d Ed. unfold upd in Ed at 1. destruct (Nat.eqb_spec j i) as [-> | N]; [discriminate|]. unfold y, disc in Ed. cbn in Ed. rewrite upd_other in Ed by exact N. destruct (conn_of x c) as [(n, k)|]; exact Ed.
    + intros n k' E. unfold y, disc in E. cbn in E. unfold conn_of in E. destruct (c_conn c) as [m|] eqn:Em; [|exists k'; split; [exact E|repeat split]].
      destruct (x_conns x m) as [k|] eqn:Ek; cbn in E; [|exists k'; split; [exact E|repeat split]]. apply upd_conn_cases in E. destruct E as [(-> & ->) | (N & E)]; [|exists k'; split; [exact E|repeat split]].
      exists k. split; [exact Ek|]. unfold left_, leave. destruct (c_state c); repeat split.
Qed.
Lemma free_conn_good h n x : fine h x -> exists x', free_conn n x = Some x' /\ fine h x' /\ kept x x'.
Proof.
  intros G. unfold free_conn. destruct (x_conns x n) as [k|] eqn:Ek; [|exists x; split; [reflexivity|split; [exact G|apply kept_refl]]].
  destruct (used x n) eqn:U; [exists x; split; [reflexivity|split; [exact G|apply kept_refl]]|].
  pose proof (gA _ _ _ _ _ G) as A. destruct (used_false x n A U) as (U1 & U2).
  assert (L : listed k = []).
  { assert (L0 : n_pending k ++ map snd (n_bysid k) ++ n_creating k = []).
    { assert (L1 : n_pending k = []). { destruct (n_pending k) as [|i l] eqn:El; [reflexivity|]. assert (I : In i (n_pending k)) by (rewrite El; left; reflexivity). apply (a_pend _ A _ _ _ Ek) in I. destruct I as (d & I). exfalso. apply (U1 _ _ _ I). }
      assert (L2 : n_creating k = []). { destruct (n_creating k) as [|i l] eqn:El; [reflexivity|]. assert (I : In i (n_creating k)) by (rewrite El; left; reflexivity). apply (a_crea _ A _ _ _ Ek) in I. destruct I as (d & I). exfalso. apply (U1 _ _ _ I). }
      assert (L3 : n_bysid k = []). { destruct (n_bysid k) as [|(d, i) l] eqn:El; [reflexivity|]. assert (I : In (d, i) (n_bysid k)) by (rewrite El; left; reflexivity). apply (a_sid _ A _ _ _ _ Ek) in I. exfalso. apply (U1 _ _ _ I). }
      rewrite L1, L2, L3. reflexivity. }
    unfold listed. rewrite L0. reflexivity. }
  assert (O : n_ops k = []).
  { destruct (n_ops k) as [|o l] eqn:El; [reflexivity|]. assert (I : In o (n_ops k)) by (rewrite El; left; reflexivity). apply (b_ops _ _ (gB _ _ _ _ _ G) _ _ _ Ek) in I.
    destruct I as (i & c & Ec & En & I). exfalso. apply (U1 i (c_state c) (c_sid c)). apply place_i; assumption. }
  unfold cleanup. rewrite Ek, L. cbn [filter each bind set_conn x_conns]. rewrite upd_same. cbn [n_ops n_with_tcp]. rewrite O. cbn [option_map].
  pose proof (unreg_good h x n k G Ek) as G1. set (y := set_addr (n_addr k) None x) in *.
  set (k1 := n_with_tcp (n_state k) false false false k).
  assert (G2 : good h None (Some n) None (set_conn n (Some k1) y)). { apply (good_prim h None (Some n) None y); [exact G1|]. apply P_lost; auto; discriminate. }
  assert (G3 : good h None (Some n) None (set_conn n (Some (n_with_lists [] (n_creating k1) [] k1)) (set_conn n (Some k1) y))).
  { rewrite (n_eta [] (n_creating k1) [] k1); [apply (good_prim h None (Some n) None (set_conn n (Some k1) y)); [exact G2|apply P_nop; cbn; apply upd_same]| |reflexivity|].
    - cbn. unfold listed in L. destruct (n_pending k) as [|i l] eqn:El; [reflexivity|]. exfalso. assert (I : In i (nodup Nat.eq_dec ((i :: l) ++ map snd (n_bysid k) ++ n_creating k))) by (apply nodup_In; left; reflexivity). rewrite L in I. destruct I.
    - cbn. destruct (n_bysid k) as [|(d, i) l] eqn:El; [reflexivity|]. assert (I : In (d, i) (n_bysid k)) by (rewrite El; left; reflexivity). apply (a_sid _ A _ _ _ _ Ek) in I. exfalso. apply (U1 _ _ _ I). }
  eexists. split; [reflexivity|]. split.
  - match goal with |- good _ _ _ _ (set_conn n None ?z) => assert (G4 : good h None (Some n) None (set_conn n None z)) end.
    { eapply good_prim; [exact G3|]. eapply P_free_conn; [cbn; apply upd_same|exact U|]. apply (proj2 (f_un _ _ _ _ (gF _ _ _ _ _ G3) n eq_refl)). }
    apply (good_no_e2 h None None n _ G4). intros k' E. cbn in E. rewrite upd_same in E. discriminate.
  - constructor; cbn; auto. intros m k' E. unfold upd in E. destruct (Nat.eqb_spec m n); [discriminate|]. exists k'. split; [exact E|repeat split].
Qed.
Lemma each_good {A} h (P : ctx -> Prop) (f : A -> ctx -> option ctx) : (forall a x, fine h x -> exists x', f a x = Some x' /\ fine h x' /\ kept x x') ->
  forall l x, fine h x -> exists x', each f l x = Some x' /\ fine h x' /\ kept x x'.
Proof.
  intros H. induction l as [|a l IH]; intros x G; cbn [each]; [exists x; split; [reflexivity|split; [exact G|apply kept_refl]]|].
  destruct (H a x G) as (y & Ey & Gy & Ky). unfold bind. rewrite Ey. destruct (IH y Gy) as (z & Ez & Gz & Kz). exists z. split; [exact Ez|]. split; [exact Gz|apply (kept_trans _ _ _ Ky Kz)].
Qed.
Lemma collect_good h x : fine h x -> exists x', collect x = Some x' /\ fine h x' /\ kept x x'.
Proof.
  intros G. unfold collect. destruct (each_good h (fun _ => True) free_chan (fun i => free_chan_good h i) (seq 0 (x_nc x)) x G) as (y & Ey & Gy & Ky). unfold bind. rewrite Ey.
  destruct (each_good h (fun _ => True) free_conn (fun i => free_conn_good h i) (seq 0 (x_nn y)) y Gy) as (z & Ez & Gz & Kz). exists z. split; [exact Ez|]. split; [exact Gz|apply (kept_trans _ _ _ Ky Kz)].
Qed.
(** ** Operations *)
Lemma active_bev h e1 e3 x i c : good h e1 None e3 x -> x_chans x i = Some c -> c_state c = Active -> exists n k, c_conn c = Some n /\ x_conns x n = Some k /\ n_bev k = true.
Proof.
  intros G Ec Es. pose proof (gA _ _ _ _ _ G) as A. assert (Ns : c_state c <> Searching) by congruence. pose proof (a_has _ A _ _ Ec Ns) as Hc.
  destruct (c_conn c) as [n|] eqn:En; [|congruence]. destruct (conn_of_some x i c n A Ec En) as (k & Ek & _). exists n, k. split; [reflexivity|]. split; [exact Ek|].
  destruct (n_bev k) eqn:Bk; [reflexivity|]. destruct (f_fit _ _ _ _ (gF _ _ _ _ _ G) _ _ Ek) as (_ & F2 & _). destruct F2 as (_ & F2); [discriminate|exact Bk|].
  assert (I : In (c_sid c, i) (n_bysid k)) by (apply (a_sid _ A _ _ _ _ Ek); rewrite <- Es; apply place_i; assumption). rewrite F2 in I. destruct I.
Qed.
Lemma create_operations_total i x c : x_chans x i = Some c -> (c_state c = Active -> exists n k, c_conn c = Some n /\ x_conns x n = Some k /\ n_bev k = true) -> exists x', create_operations i x = Some x'.
Proof.
  intros Ec H. unfold create_operations. rewrite Ec. destruct (c_state c); eauto. destruct (H eq_refl) as (n & k & En & Ek & Bk). rewrite En, Ek, Bk. destruct (filter _ _); eauto.
Qed.
Lemma leave_op_total h x i op : fine h x -> exists x', leave_op i op x = Some x'.
Proof.
  intros G. unfold leave_op. destruct (x_chans x i) as [c|] eqn:Ec; [|eauto]. destruct (is_in op (c_ops c)) eqn:I; [|eauto]. apply is_in_iff in I.
  assert (Sc : c_state c = Active). { apply (b_act _ _ (gB _ _ _ _ _ G) _ _ Ec). intros Z. rewrite Z in I. destruct I. }
  destruct (active_bev h None None x i c G Ec Sc) as (n & k & En & Ek & _). rewrite En, Ek. eauto.
Qed.
(** ** Channel::build() *)
Lemma attach_new h e1 x a r ok i c : good h e1 None None x -> x_chans x i = Some c -> c_state c = Searching ->
  exists x' o, build_conn a r ok x = (x', o) /\ match o with
    | None => good h e1 None None x' /\ x_chans x' = x_chans x /\ x_search x' = x_search x /\ x_run x' = x_run x /\ (x_run x = true -> r || ok = false)
    | Some n => exists y c', attach i n x' = Some y /\ good h e1 None None y /\ fr (Some i) x y /\ x_chans y i = Some c' /\ c_state c' <> Searching
    end.
Proof.
  intros G Ec Es. destruct (build_conn_good h e1 None None a r ok x G) as (z & o & Eb & G2 & F2 & Hc & Hs2 & Hn & Hno & _). exists z, o. split; [exact Eb|].
  destruct o as [n|]; [|split; [exact G2|split; [exact Hc|split; [exact Hs2|split; [apply (r_run _ _ _ F2)|auto]]]]].
  destruct (Hn n eq_refl) as (k & Ek & Ea & Er). subst a.
  destruct (attach_good h e1 None i n c k z G2) as (x' & c' & Ex & G3 & F3 & Ec' & En' & Es'); auto; [rewrite Hc; exact Ec|].
  exists x', c'. split; [exact Ex|]. split; [exact G3|]. split; [apply (fr_trans _ _ _ _ (fr_weak _ _ _ F2) F3)|]. auto.
Qed.
Lemma build_chan_good h name server ok x : fine h x -> (h = true -> server <> None -> ok = true) ->
  exists x' o, build_chan name server ok x = Some (x', o) /\ fine h x' /\ (forall i, o = Some i -> exists c, x_chans x' i = Some c).
Proof.
  intros G Hok. unfold build_chan. destruct (x_run x) eqn:Hr; cbn [negb]; [|exists x, None; split; [reflexivity|]; split; [exact G|discriminate]].
  destruct (find_name (name, server) (x_names x)) as [i|] eqn:Ef.
  { exists x, (Some i). split; [reflexivity|]. split; [exact G|]. intros j Ej. inversion Ej; subst. destruct (d_in _ (gD _ _ _ _ _ G) _ _ (find_name_some _ _ _ Ef)) as (c & Ec & _). eauto. }
  fold (newchan name server x).
  assert (G1 : good h (Some (x_nc x)) None None (newchan name server x)) by (apply (good_prim _ _ _ _ x); [apply good_e1, G|apply P_new; auto]).
  assert (E1 : x_chans (newchan name server x) (x_nc x) = Some (new_channel name server)) by (cbn; apply upd_same).
  set (y := newchan name server x) in *. destruct server as [a|].
  - destruct (attach_new h (Some (x_nc x)) y a false ok (x_nc x) _ G1 E1 eq_refl) as (z & o & Eb & H). rewrite Eb. destruct o as [n|].
    + destruct H as (w & c' & Ew & Gw & Fw & Ec' & Ns). unfold bind. rewrite Ew. exists w, (Some (x_nc x)). split; [reflexivity|].
      split; [apply (good_no_e1 h _ _ _ _ Gw); intros _ _ d Ed Sd; congruence|]. intros i Ei. inversion Ei; subst. eauto.
    + destruct H as (Gz & Hc & Hs & Hrz & Hn). exists z, None. split; [reflexivity|]. split; [|discriminate]. apply (good_no_e1 h _ _ _ _ Gz). intros Hh Hrr d Ed Sd. exfalso.
      specialize (Hn Hr). rewrite (Hok Hh) in Hn by discriminate. discriminate.
  - exists (set_search (x_search y ++ [x_nc x]) y), (Some (x_nc x)). split; [reflexivity|]. split.
    + apply (good_no_e1 h (x_nc x) None None); [apply (good_prim h (Some (x_nc x)) None None y); [exact G1|apply P_search]|]. intros _ _ d Ed Sd. cbn. apply in_app_iff. right. left. reflexivity.
    + intros i Ei. inversion Ei; subst. cbn. rewrite upd_same. eauto.
Qed.
(** ** Events *)
Lemma exec_good h name server ok x : fine h x -> (h = true -> server <> None -> ok = true) -> exists x', exec name server ok x = Some x' /\ fine h x'.
Proof.
  intros G Hok. unfold exec. destruct (build_chan_good h name server ok x G Hok) as (y & o & Ey & Gy & Hi). rewrite Ey. cbn [bind]. destruct o as [i|]; [|eauto].
  destruct (Hi i eq_refl) as (c & Ec). rewrite Ec. fold (add_op i c y).
  destruct (create_operations_total i (add_op i c y) (c_with_refs (c_refs c ++ [x_no y]) (c_with_ops (c_pending c ++ [x_no y]) (c_ops c) c))) as (z & Ez).
  - cbn. apply upd_same.
  - intros Es. apply (active_bev h None None y i c Gy Ec Es).
  - rewrite Ez. exists z. split; [reflexivity|]. apply (good_prim h None None None y); [exact Gy|]. apply (P_exec _ _ _ _ y i c z Ec Ez).
Qed.
Lemma watch_good h name server ok x : fine h x -> (h = true -> server <> None -> ok = true) -> exists x', watch name server ok x = Some x' /\ fine h x'.
Proof.
  intros G Hok. unfold watch. destruct (build_chan_good h name server ok x G Hok) as (y & o & Ey & Gy & Hi). rewrite Ey. cbn [bind]. destruct o as [i|]; [|eauto].
  destruct (Hi i eq_refl) as (c & Ec). rewrite Ec. eexists. split; [reflexivity|]. apply (good_prim h None None None y); [exact Gy|]. apply (P_watch _ _ _ _ y i c Ec).
Qed.
Lemma found_good h i a ok x : fine h x -> exists x', found i a ok x = Some x' /\ fine h x'.
Proof.
  intros G. unfold found. destruct (x_chans x i) as [c|] eqn:Ec; [|eauto]. destruct (c_state c) eqn:Es; eauto.
  destruct (attach_new h None x a false ok i c G Ec Es) as (z & o & Eb & H). rewrite Eb. destruct o as [n|].
  - destruct H as (w & c' & Ew & Gw & _). eauto.
  - destruct H as (Gz & _). eauto.
Qed.
Lemma validated_good h n x : fine h x -> exists x', validated n x = Some x' /\ fine h x'.
Proof.
  intros G. unfold validated. destruct (x_conns x n) as [k|] eqn:Ek; [|eauto]. destruct (open k) eqn:Ok; [|eauto].
  set (k1 := n_with_tcp (n_state k) (n_bev k) (n_timer k) true k).
  assert (G1 : good h None None (Some n) (set_conn n (Some k1) x)). { apply (good_prim h None None (Some n) x); [apply good_e3, G|]. apply P_valid; auto. }
  destruct (create_channels_good h None None n k1 (set_conn n (Some k1) x)) as (x' & Ex & G' & _); [discriminate|exact G1|cbn; apply upd_same|]. eauto.
Qed.
Lemma created_good h n i sid ok x : fine h x -> honest x (ECreated n i sid ok) -> exists x', created n i sid ok x = Some x' /\ fine h x'.
Proof.
  intros G Hh. unfold created. destruct (x_conns x n) as [k|] eqn:Ek; [|eauto]. destruct (open k) eqn:Ok; [|eauto]. pose proof (gA _ _ _ _ _ G) as A.
  unfold open in Ok. apply andb_true_iff in Ok. destruct Ok as (Bk & _).
  destruct (is_in i (n_creating k)) eqn:I.
  - apply is_in_iff in I. apply (a_crea _ A _ _ _ Ek) in I. destruct I as (d & Pl). destruct (x_chans x i) as [c|] eqn:Ec; [|unfold place in Pl; rewrite Ec in Pl; discriminate].
    assert (Pc : c_state c = Creating /\ c_conn c = Some n). { unfold place in Pl. rewrite Ec in Pl. destruct (c_conn c); [|discriminate]. inversion Pl; subst. auto. }
    destruct Pc as (Es & En). destruct ok; cbn [negb].
    + fold (active1 i n sid c k x). specialize (Hh k Ek).
      destruct (create_operations_total i (active1 i n sid c k x) (c_with_state Active (c_with_sid sid c))) as (y & Ey).
      * cbn. apply upd_same.
      * intros _. exists n. eexists. split; [exact En|]. split; [cbn; apply upd_same|]. exact Bk.
      * rewrite Ey. cbn [bind]. destruct (create_operations_watch _ _ _ Ey) as (_ & _ & _ & _ & _ & _ & _ & _ & _ & _ & H11 & _).
        destruct (H11 i (c_with_state Active (c_with_sid sid c))) as (c3 & Ec3 & _); [cbn; apply upd_same|]. rewrite Ec3. eexists. split; [reflexivity|].
        apply (good_prim h None None None x); [exact G|]. apply (P_active _ _ _ _ x i n sid c k y c3); assumption.
    + eexists. split; [reflexivity|]. apply (good_prim h None None None x); [exact G|]. apply (P_refused _ _ _ _ x i n c k); assumption.
  - eexists. split; [reflexivity|]. apply (good_prim h None None None x); [exact G|]. apply P_emit. destruct ok; repeat constructor.
Qed.
Lemma clean_loop h name a again l : forall x, fine h x -> NoDup (map fst l) -> (forall e, In e l -> In e (x_names x)) ->
  exists x', each (fun e x => bind (clean_one name a again e x) collect) l x = Some x' /\ fine h x'.
Proof.
  induction l as [|(key, i) l IH]; intros x G Nd Hl; cbn [each]; [eauto|]. cbn in Nd. inversion Nd as [|? ? Nk Nd']; subst.
  assert (S : exists y, clean_one name a again (key, i) x = Some y /\ fine h y /\ (forall p, In p (x_names x) -> fst p <> key -> In p (x_names y))).
  { unfold clean_one. destruct (negb _); [exists x; split; [reflexivity|split; [exact G|auto]]|].
    destruct (d_in _ (gD _ _ _ _ _ G) key i (Hl _ (or_introl eq_refl))) as (c & Ec & Hk). rewrite Ec.
    set (names := filter (fun p => negb (key_eqb key (fst p))) (x_names x)).
    assert (G1 : fine h (set_names names x)). { apply (good_prim h None None None x); [exact G|]. apply P_names; [intros p I; apply filter_In in I; apply I|]. apply nodup_filter, (d_nd _ (gD _ _ _ _ _ G)). }
    assert (K1 : forall p, In p (x_names x) -> fst p <> key -> In p names).
    { intros p I N. apply filter_In. split; [exact I|]. destruct (key_eqb key (fst p)) eqn:E; [|reflexivity]. apply key_eqb_eq in E. congruence. }
    destruct a.
    - destruct (c_refs c); [destruct (c_watch c)|]; (eexists; split; [reflexivity|]; split; [assumption|auto]).
    - eexists. split; [reflexivity|]. split; [assumption|exact K1].
    - destruct (disconnect_good h again None i c (set_names names x) G1 Ec) as (y & c' & Ey & Gy & Fy & _). exists y. split; [exact Ey|]. split; [exact Gy|].
      rewrite (r_names _ _ _ Fy). exact K1. }
  destruct S as (y & Ey & Gy & Ky). rewrite Ey. cbn [bind]. destruct (collect_good h y Gy) as (z & Ez & Gz & Kz). rewrite Ez. cbn [bind].
  apply IH; [exact Gz|exact Nd'|]. intros e I. rewrite (k_names _ _ Kz). apply Ky; [apply Hl; right; exact I|]. intros E. apply Nk. rewrite <- E. apply in_map, I.
Qed.
Lemma ns_loop h ok after : forall before x, fine h x -> x_ns x = before ++ after -> exists x', ns_check ok before after x = Some x' /\ fine h x'.
Proof.
  induction after as [|(a, o) l IH]; intros before x G Hn; cbn [ns_check]; [eauto|].
  destruct (match o with Some n => match x_conns x n with Some k => match n_state k with Disconnected => false | _ => true end | None => false end | None => false end).
  - apply IH; [exact G|]. rewrite Hn, <- app_assoc. reflexivity.
  - destruct (build_conn_good h None None None a false (ok a) x G) as (y & o' & Eb & G2 & F2 & Hc & Hs2 & Hnn & Hno & _ & Hk). rewrite Eb. destruct o' as [n|]; [|eauto].
    destruct (Hnn n eq_refl) as (k & Ek & Ea & Er). rewrite Ek.
    assert (G3 : fine h (set_conn n (Some (n_with_ns k)) y)) by (apply (good_prim h None None None y); [exact G2|apply P_nsconn, Ek]).
    assert (G4 : fine h (set_ns (before ++ (a, Some n) :: l) (set_conn n (Some (n_with_ns k)) y))).
    { eapply good_prim; [exact G3|]. apply P_ns. intros b m I. cbn. unfold upd. destruct (Nat.eqb_spec m n); [discriminate|].
      assert (I' : In (b, Some m) (x_ns x)). { rewrite Hn. apply in_app_iff in I. apply in_app_iff. destruct I as [I | [I | I]]; [left; exact I|inversion I; congruence|right; right; exact I]. }
      destruct (a_ns _ (gA _ _ _ _ _ G) _ _ I') as (q & Eq). rewrite (Hk _ _ Eq). discriminate. }
    destruct (collect_good h _ G4) as (z & Ez & Gz & Kz). rewrite Ez. cbn [bind]. apply IH; [exact Gz|]. rewrite (k_ns _ _ Kz). cbn. rewrite <- app_assoc. reflexivity.
Qed.
Lemma close_loop h again l : forall x, fine h x -> (forall n, In n l -> x_conns x n <> None) -> exists x', each (cleanup again) l x = Some x' /\ fine h x' /\ x_run x' = x_run x /\
  (forall m k, x_conns x m = Some k -> exists k', x_conns x' m = Some k' /\ (In m l \/ n_bev k = false -> n_bev k' = false)).
Proof.
  induction l as [|n l IH]; intros x G Hl; cbn [each]; [exists x; split; [reflexivity|split; [exact G|split; [reflexivity|]]]; intros m k Ek; exists k; split; [exact Ek|intros [[] | H]; exact H]|].
  pose proof (Hl n (or_introl eq_refl)) as Hn. destruct (x_conns x n) as [k|] eqn:Ek; [clear Hn|congruence].
  destruct (cleanup_good h again n k x G Ek) as (y & Ey & Gy & Sy & _). rewrite Ey. cbn [bind]. destruct (IH y Gy) as (z & Ez & Gz & Rz & Hz).
  - intros m I E. pose proof (Hl m (or_intror I)) as Hm. destruct (x_conns x m) as [q|] eqn:Eq; [|congruence]. destruct (s_conns _ _ _ Sy _ _ Eq) as (q' & E' & _). congruence.
  - exists z. split; [exact Ez|]. split; [exact Gz|]. split; [rewrite Rz; apply (s_run _ _ _ Sy)|]. intros m q Eq. destruct (s_conns _ _ _ Sy _ _ Eq) as (q1 & E1 & _ & T1), (Hz _ _ E1) as (q2 & E2 & B2).
    exists q2. split; [exact E2|]. intros H. apply B2. destruct (Nat.eq_dec m n) as [-> | N]; [right; apply (s_end _ _ _ Sy _ E1)|]. destruct H as [[H | H] | H]; [congruence|left; exact H|right].
    destruct (T1 N) as (_ & _ & T & _). congruence.
Qed.
Lemma close_good h again x : fine h x -> exists x', close again x = Some x' /\ fine h x'.
Proof.
  intros G. unfold close. destruct (x_run x) eqn:Hr; cbn [negb]; [|eauto].
  assert (G1 : fine h (stop x)) by (apply (good_prim h None None None x); [exact G|apply P_stop]).
  set (l := filter (fun n => match x_conns x n with Some k => match x_addr x (n_addr k) with Some m => Nat.eqb n m | None => false end | None => false end) (seq 0 (x_nn x))).
  destruct (close_loop h again l (stop x) G1) as (y & Ey & Gy & _).
  - intros n I E. unfold l in I. apply filter_In in I. destruct I as (_ & I). cbn in E. rewrite E in I. discriminate.
  - rewrite Ey. cbn [bind]. eexists. split; [reflexivity|].
    assert (G2 : fine h (set_names [] y)) by (apply (good_prim h None None None y); [exact Gy|apply P_names; [intros p []|constructor]]).
    apply (good_prim h None None None (set_names [] y)); [exact G2|]. apply P_ns. intros a n [].
Qed.
Theorem handle_good h e x : fine h x -> honest x e -> (h = true -> no_failure e) -> exists x', handle e x = Some x' /\ fine h x'.
Proof.
  intros G Hh Hf. destruct e as [name server ok|i op|i op|name server ok|i w|i a ok|i|n|n|n v again|n i sid ok|n sid again|n ok|name a again|ok|again]; cbn [handle].
  - apply exec_good; [exact G|]. intros E N. specialize (Hf E). destruct server; [exact Hf|congruence].
  - destruct (leave_op_total h x i op G) as (y & Ey). assert (E : exists z, drop_op i op x = Some z). { unfold drop_op. rewrite Ey. cbn [bind]. destruct (x_chans y i); eauto. }
    destruct E as (z & Ez). exists z. split; [exact Ez|]. apply (good_prim h None None None x); [exact G|]. apply (P_drop _ _ _ _ x i op z Ez).
  - destruct (leave_op_total h x i op G) as (y & Ey). assert (E : exists z, end_op i op x = Some z). { unfold end_op. destruct (x_chans x i) as [c|]; [|eauto]. destruct (is_in op (c_ops c)); [|eauto]. rewrite Ey. cbn [bind]. eauto. }
    destruct E as (z & Ez). exists z. split; [exact Ez|]. apply (good_prim h None None None x); [exact G|]. apply (P_end _ _ _ _ x i op z Ez).
  - apply watch_good; [exact G|]. intros E N. specialize (Hf E). destruct server; [exact Hf|congruence].
  - destruct (x_chans x i) as [c|] eqn:Ec; [|eauto]. eexists. split; [reflexivity|]. apply (good_prim h None None None x); [exact G|]. apply (P_unwatch _ _ _ _ x i w c Ec).
  - apply found_good, G.
  - destruct (x_chans x i) as [c|] eqn:Ec.
    + destruct (c_state c) eqn:Es; eauto; (eexists; split; [reflexivity|]; apply (good_prim h None None None x); [exact G|]; apply P_prune; intros d Ed; congruence).
    + eexists. split; [reflexivity|]. apply (good_prim h None None None x); [exact G|]. apply P_prune. intros d Ed. congruence.
  - assert (E : exists y, tcp_up n x = Some y). { unfold tcp_up. destruct (x_conns x n) as [k|]; [|eauto]. destruct (n_state k); eauto. destruct (n_bev k); eauto. }
    destruct E as (y & Ey). exists y. split; [exact Ey|]. apply (good_prim h None None None x); [exact G|]. apply (P_up _ _ _ _ x n y Ey).
  - apply validated_good, G.
  - destruct (lost_good h again v n x G) as (y & Ey & Gy & _). eauto.
  - apply created_good; assumption.
  - unfold destroyed. destruct (x_conns x n) as [k|]; [|eauto]. destruct (open k); [|eauto]. destruct (find_sid sid (n_bysid k)) as [i|]; [|eauto]. destruct (x_chans x i) as [c|] eqn:Ec; [|eauto].
    destruct (disconnect_good h again None i c x G Ec) as (y & c' & Ey & Gy & _). eauto.
  - assert (E : exists y, tick n ok x = Some y). { unfold tick. destruct (x_conns x n) as [k|]; [|eauto]. destruct (n_timer k); [|eauto]. destruct (n_state k); eauto. destruct ok; eauto. }
    destruct E as (y & Ey). exists y. split; [exact Ey|]. apply (good_prim h None None None x); [exact G|]. apply (P_tick _ _ _ _ x n ok y); [exact Hf|exact Ey].
  - unfold clean. apply clean_loop; [exact G|apply (d_nd _ (gD _ _ _ _ _ G))|auto].
  - apply ns_loop; [exact G|reflexivity].
  - apply close_good, G.
Qed.
Theorem step_good h e x : fine h x -> honest x e -> (h = true -> no_failure e) -> exists x', step x e = Some x' /\ fine h x'.
Proof.
  intros G Hh Hf. destruct (handle_good h e x G Hh Hf) as (y & Ey & Gy). unfold step. rewrite Ey. cbn [bind]. destruct (collect_good h y Gy) as (z & Ez & Gz & _). eauto.
Qed.
Lemma init_good h ns : fine h (init ns).
Proof.
  constructor.
  - constructor; cbn; try discriminate.
    + intros a n I. apply in_map_iff in I. destruct I as (b & E & _). discriminate.
  - constructor; cbn; try discriminate. reflexivity.
  - constructor; cbn; try discriminate. reflexivity.
  - constructor; cbn; [intros key i []|constructor].
  - intros _ _ i c E. discriminate.
  - constructor; cbn; discriminate.
Qed.
Theorem run_good h es : forall x, fine h x -> honest_run x es -> (h = true -> Forall no_failure es) -> exists x', run x es = Some x' /\ fine h x'.
Proof.
  induction es as [|e es IH]; intros x G Hh Hf; cbn [run]; [eauto|]. destruct Hh as (H1 & H2).
  destruct (step_good h e x G H1) as (y & Ey & Gy); [intros E; specialize (Hf E); inversion Hf; assumption|]. rewrite Ey. cbn [bind].
  apply IH; [exact Gy|apply H2, Ey|]. intros E. specialize (Hf E). inversion Hf; assumption.
Qed.
