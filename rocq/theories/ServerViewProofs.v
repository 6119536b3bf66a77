(** Proofs for C26. *)
From Coq Require Import ZArith List Bool Lia ZifyBool ZifyNat.
From Verif Require Import Base BitMaskModel BitMaskSpec TypeModel TypeSpec TypeProofs TypeNameProofs LayoutProofs ValueModel ValueSpec ValueTypeProofs
  MarkModel MarkSpec MarkProofs FieldProofs CopyModel CopySpec CopyProofs CopyProps PvReqModel PvReqSpec PvReqProofs PvReqProps
  ServerMonModel ServerMonSpec ServerMonProofs ServerMonProps ServerViewSpec.
Import ListNotations.
Local Open Scope Z_scope.
#[local] Notation length := List.length.

(** ** Which posts count *)
Lemma accepted_offered U real squash es : forall m, accepted U real squash m es = filter real (offered U real squash m es).
Proof.
  induction es as [|e es IH]; intro m; [reflexivity|]. cbn [accepted offered]. rewrite filter_app. f_equal.
  - destruct e as [[u|] maybe force| | | | | | | | | | |]; try reflexivity. cbn [takes offers].
    destruct (negb (finished U m)), (negb maybe || force || (length (queue U m) <? limit U m)%nat); cbn [andb]; rewrite ?andb_false_r, ?andb_true_r; cbn [filter]; destruct (real u); reflexivity.
  - destruct (step U real squash m e) as [(m', o)|]; [apply IH|reflexivity].
Qed.
Lemma offered_posted U real squash es : forall m u, In u (offered U real squash m es) -> posted U es u.
Proof.
  induction es as [|e es IH]; intros m u H; [easy|]. cbn [offered] in H. apply in_app_or in H. destruct H as [H|H].
  - destruct e as [[v|] maybe force| | | | | | | | | | |]; try easy. cbn [offers] in H.
    destruct (negb (finished U m) && _); [|easy]. destruct H as [->|[]]. exists maybe, force. now left.
  - destruct (step U real squash m e) as [(m', o)|]; [|easy]. destruct (IH _ _ H) as (a & b & X). exists a, b. now right.
Qed.

(** ** A fold which does not see squashing *)
Section Fold.
  Variables (U V : Type) (squash : U -> U -> U) (real : U -> bool) (ok : U -> Prop) (apply : V -> U -> V).
  Hypothesis ok_squash : forall a b, ok a -> ok b -> ok (squash a b).
  Hypothesis law : forall s a b, ok a -> ok b -> apply s (squash a b) = apply (apply s a) b.
  Hypothesis skip : forall s a, ok a -> real a = false -> apply s a = s.
  Lemma fold_squash r : forall a s, ok a -> Forall ok r -> apply s (fold_left squash r a) = fold_left apply r (apply s a).
  Proof.
    induction r as [|b r IH]; intros a s OA OR; [reflexivity|]. inversion OR; subst. cbn [fold_left].
    rewrite IH by auto. now rewrite law.
  Qed.
  Lemma fold_groups g us : Forall2 (merged U squash) g us -> Forall ok (concat g) -> forall s,
    fold_left apply us s = fold_left apply (concat g) s.
  Proof.
    induction 1 as [|x u g us M F IH]; intros OK s; [reflexivity|]. cbn [concat] in *. apply Forall_app in OK. destruct OK as (O1 & O2).
    destruct x as [|a r]; [easy|]. cbn [merged] in M. subst u. inversion O1; subst. cbn [fold_left app]. rewrite fold_left_app, IH by auto. now rewrite fold_squash.
  Qed.
  Lemma fold_filter l : Forall ok l -> forall s, fold_left apply (filter real l) s = fold_left apply l s.
  Proof.
    induction 1 as [|a l O F IH]; intro s; [reflexivity|]. cbn [filter fold_left]. destruct (real a) eqn:R; cbn [fold_left]; rewrite IH; [reflexivity|]. now rewrite skip.
  Qed.
  Lemma groups_ok g us : Forall2 (merged U squash) g us -> Forall ok (concat g) -> Forall ok us.
  Proof.
    induction 1 as [|x u g us M F IH]; intro OK; [constructor|]. cbn [concat] in OK. apply Forall_app in OK. destruct OK as (O1 & O2). constructor; [|auto].
    destruct x as [|a r]; [easy|]. cbn in M. subst u. inversion O1 as [|? ? OA OR]; subst. clear - OA OR ok_squash. revert a OA.
    induction OR as [|b r OB OR IH]; intros a OA; [exact OA|]. cbn. apply IH. auto.
  Qed.
End Fold.

(** ** One field *)
Section View.
  Variables (fuel : nat) (fp : fpu) (same : list fdesc -> list fdesc -> bool) (m : member) (mask : bmask).
  Hypothesis FW : exact_widening fp.
  Hypothesis TS : types_shared same.
  Hypothesis G : good_type m.
  Hypothesis ST : m_code m = tc_Struct.
  Hypothesis NU : no_union m.
  Variable P : nat -> Prop.
  Hypothesis MP : mask_is mask (nfields m) P.
  Hypothesis around : forall i k, P k -> is_inside (flatten m) i k -> P i.
  Notation nodes := (flatten m).
  Notation squash := (merge_into (S (S fuel)) fp same nodes).

  Definition upd (u : list cell) : Prop := value_of m (Val nodes u) /\ ~ marked u 0.

  Lemma upd_length u : upd u -> length u = length nodes.
  Proof. intros ((_ & _ & C) & _). exact (cells_ok_length _ _ C). Qed.
  Lemma upd_storage u : upd u -> storage_for m (Val nodes u).
  Proof.
    intros ((_ & _ & C) & _). split; [reflexivity|]. cbn [v_cells]. inversion C as [? ? F]; subst. clear C.
    pose proof (nodes_init m (proj1 G)) as NI. clear - F NI. induction F as [|d c n cs H F IH]; [constructor|]. inversion NI as [|? ? I0 NI']; subst. constructor; [|auto].
    eexists. split; [exact I0|]. exact (node_ok_kind _ _ _ H I0).
  Qed.
  Lemma squash_assigned a b : upd a -> upd b -> assigned nodes b 0 m 0 a (squash a b).
  Proof.
    intros A B. pose proof (C21_assign_partial fuel fp same m 0 m b m 0 a FW TS (proj1 B)) as H.
    assert (SA : struct_at m 0 m) by (split; [exact ST|left; auto]).
    destruct (H SA G (upd_storage a A) SA NU) as (t & c & E & AS). unfold merge_into. rewrite E. exact AS.
  Qed.
  Lemma as_assigned_ok d s : node_ok d s -> node_ok d (as_assigned s).
  Proof.
    intro H. destruct s as [| | | | | | |ar]; try exact H. destruct ar as [|c l|l|l]; try exact H; destruct l; try exact H; cbn; apply ok_untyped; inversion H; subst;
      try (match goal with E : f_code d = _ |- _ => rewrite E end; reflexivity).
    - match goal with E : pod_width _ = Some _ |- _ => revert E end. unfold pod_width.
      repeat match goal with |- context [?a =? ?b] => destruct (Z.eqb_spec a b) as [->|]; [reflexivity|] end. discriminate.
    - match goal with E : f_code d = _ \/ _ |- _ => destruct E as [-> | ->] end; reflexivity.
  Qed.
  Lemma nodes_len : length nodes = nfields m.
  Proof. symmetry. apply nfields_flatten. Qed.
  Lemma cell_at (u : list cell) k : length u = length nodes -> (k < nfields m)%nat -> exists b s, nth_error u k = Some (b, s).
  Proof. intros L K. destruct (nth_error u k) as [(b, s)|] eqn:E; [eauto|]. apply nth_error_None in E. rewrite nodes_len in L. lia. Qed.
  Lemma root_code d : nth_error nodes 0 = Some d -> f_code d = tc_Struct.
  Proof. intro E. rewrite <- ST. rewrite <- flatten_hd_code. unfold first_node. destruct nodes; [discriminate|]. cbn in E. now injection E as ->. Qed.

  Lemma inside_dec i j : {is_inside nodes i j} + {~ is_inside nodes i j}.
  Proof.
    pose proof (good_lay m G) as LY. destruct (nth_error nodes i) as [d|] eqn:E.
    - destruct (le_lt_dec j i); [right; intro H; apply (inside_iff _ _ _ _ LY E) in H; lia|].
      destruct (le_lt_dec (i + f_size d) j); [right; intro H; apply (inside_iff _ _ _ _ LY E) in H; lia|]. left. apply (inside_iff _ _ _ _ LY E). lia.
    - right. intro H. destruct (inside_range _ _ _ LY H) as (d & X & _). congruence.
  Qed.
  Lemma marked_dec u k : {marked u k} + {~ marked u k}.
  Proof.
    unfold marked. destruct (nth_error u k) as [([|], s)|]; [left; eauto|right|right]; intros (x & H); discriminate.
  Qed.
  Lemma bounded_dec (Q : nat -> Prop) n : (forall k, {Q k} + {~ Q k}) -> (forall k, Q k -> (k < n)%nat) -> {exists k, Q k} + {~ exists k, Q k}.
  Proof.
    intros D B. destruct (Exists_dec Q (seq 0 n) D) as [H|H]; rewrite Exists_exists in H.
    - left. destruct H as (k & _ & H). eauto.
    - right. intros (k & X). apply H. exists k. split; [apply in_seq; specialize (B k X); lia|exact X].
  Qed.
  Lemma carried_dec u i j : {carried nodes u i j} + {~ carried nodes u i j}.
  Proof.
    unfold carried. destruct (inside_dec i j); [|right; tauto]. destruct (marked_dec u j); [left; auto|].
    destruct (bounded_dec (fun k => is_inside nodes i k /\ marked u k /\ is_inside nodes k j) (length nodes)) as [H|H].
    - intro k. destruct (inside_dec i k), (marked_dec u k), (inside_dec k j); try (left; tauto); right; tauto.
    - intros k (A & _). exact (inside_bound _ _ _ (good_lay m G) A).
    - left. auto.
    - right. tauto.
  Qed.
  Lemma sent_dec u j : length u = length nodes -> {ValueSpec.sent nodes u (Some mask) j} + {~ ValueSpec.sent nodes u (Some mask) j}.
  Proof.
    intro L. unfold ValueSpec.sent. apply (bounded_dec _ (length nodes)).
    - intro k. unfold selected. fold (marked u k). destruct (marked_dec u k) as [M|M]; [|right; tauto].
      destruct (mbit mask (Z.of_nat k)); [|right; intros ((_ & X) & _); discriminate].
      destruct (Nat.eq_dec k j); [left; auto|]. destruct (inside_dec k j); [left; auto|right; tauto].
    - intros k (((s & E) & _) & _). rewrite <- L. apply nth_error_Some. unfold cell in *. congruence.
  Qed.

  Lemma squash_field a b j d : upd a -> upd b -> (1 <= j)%nat -> nth_error nodes j = Some d ->
    forall va sa vb sb, nth_error a j = Some (va, sa) -> nth_error b j = Some (vb, sb) ->
    exists vn sn, nth_error (squash a b) j = Some (vn, sn) /\
      (vn = true <-> va = true \/ carried nodes b 0 j) /\
      sn = if f_code d =? tc_Struct then sa else if carried_dec b 0 j then as_assigned sb else sa.
  Proof.
    intros A B J EN va sa vb sb EA EB. destruct (squash_assigned a b A B) as (L & _ & _ & FD).
    assert (K : (j < nfields m)%nat) by (rewrite <- nodes_len; apply nth_error_Some; congruence).
    destruct (FD j d vb sb va sa) as (vn & sn & E & H); [lia|exact EN|exact EB|exact EA|]. cbn [Nat.add] in *. exists vn, sn. split; [exact E|].
    destruct (f_code d =? tc_Struct); [destruct H as (-> & H); split; [exact H|reflexivity]|]. destruct H as (H1 & H2).
    destruct (carried_dec b 0 j) as [C|C]; [destruct (H1 C) as (-> & ->); split; [tauto|reflexivity]|destruct (H2 C) as (-> & ->); split; [tauto|reflexivity]].
  Qed.
  Lemma squash_root (a b : list cell) va sa : upd a -> upd b -> nth_error a 0 = Some (va, sa) -> nth_error (squash a b) 0 = Some (false, sa).
  Proof.
    intros A B EA. destruct (squash_assigned a b A B) as (L & _ & RT & _). destruct (RT va sa EA) as (b' & E & H). rewrite E. f_equal. f_equal.
    destruct b'; [|reflexivity]. exfalso. destruct (proj1 H eq_refl) as [X|[X|(k & X & _)]].
    - apply (proj2 A). exists sa. unfold cell in *. now rewrite EA, X.
    - exact (proj2 B X).
    - apply (inside_lt _ _ _ (good_lay m G)) in X. lia.
  Qed.
  Lemma squash_length a b : upd a -> upd b -> length (squash a b) = length nodes.
  Proof. intros A B. destruct (squash_assigned a b A B) as (L & _). rewrite <- (upd_length a A). exact L. Qed.

  Lemma squash_upd a b : upd a -> upd b -> upd (squash a b).
  Proof.
    intros A B. pose proof (upd_length a A) as LA. pose proof (upd_length b B) as LB. pose proof (squash_length a b A B) as L.
    pose proof (nfields_pos m) as NP. pose proof A as ((_ & _ & CA) & NA). pose proof B as ((_ & _ & CB) & NB).
    assert (EACH : forall k d c, nth_error nodes k = Some d -> nth_error (squash a b) k = Some c -> node_ok d (snd c)).
    { intros k d c EN EC. assert (K : (k < nfields m)%nat) by (rewrite <- nodes_len; apply nth_error_Some; congruence).
      destruct (cell_at a k LA K) as (va & sa & EA). destruct (cell_at b k LB K) as (vb & sb & EB).
      destruct k as [|k'].
      - pose proof (squash_root a b va sa A B EA) as E. unfold cell in *. rewrite EC in E. injection E as ->. exact (cells_ok_node _ _ _ _ _ _ CA EN EA).
      - destruct (squash_field a b (S k') d A B ltac:(lia) EN va sa vb sb EA EB) as (vn & sn & E & _ & H). unfold cell in *. rewrite EC in E. injection E as ->. cbn [snd].
        pose proof (cells_ok_node _ _ _ _ _ _ CA EN EA) as OA. pose proof (cells_ok_node _ _ _ _ _ _ CB EN EB) as OB.
        rewrite H. destruct (f_code d =? tc_Struct); [exact OA|]. destruct (carried_dec b 0 (S k')); [now apply as_assigned_ok|exact OA]. }
    split; [split; [exact G|split; [reflexivity|]]|].
    - constructor. clear - L EACH. revert L EACH. generalize (squash a b) as c. generalize nodes as n.
      induction n as [|d n IH]; intros [|x c] L EACH; try discriminate; constructor.
      + exact (EACH 0%nat d x eq_refl eq_refl).
      + apply IH; [now injection L|]. intros k d' c' E1 E2. exact (EACH (S k) d' c' E1 E2).
    - destruct (cell_at a 0 LA NP) as (va & sa & EA). intros (s & X). pose proof (squash_root a b va sa A B EA). unfold cell in *. congruence.
  Qed.

  Lemma marked_nth (u : list cell) k v s : nth_error u k = Some (v, s) -> (marked u k <-> v = true).
  Proof. intro E. unfold marked. unfold cell in *. rewrite E. split; [intros (x & H); congruence|intros ->; eauto]. Qed.
  Lemma marked_bound u k : upd u -> marked u k -> (1 <= k < nfields m)%nat.
  Proof.
    intros A M. split; [destruct k; [now destruct (proj2 A)|lia]|]. destruct M as (s & E). rewrite <- nodes_len, <- (upd_length u A). apply nth_error_Some. unfold cell in *. congruence.
  Qed.
  Lemma carried_marked a k : upd a -> marked a k -> carried nodes a 0 k.
  Proof. intros A M. pose proof (marked_bound a k A M). split; [|now left]. apply root_inside_iff; [exact G|lia]. Qed.
  Lemma squash_marked a b k : upd a -> upd b -> (marked (squash a b) k <-> marked a k \/ carried nodes b 0 k).
  Proof.
    intros A B. pose proof (squash_upd a b A B) as SQ. split.
    - intro M. pose proof (marked_bound _ k SQ M) as KB.
      destruct (cell_at a k (upd_length a A)) as (va & sa & EA); [lia|]. destruct (cell_at b k (upd_length b B)) as (vb & sb & EB); [lia|].
      destruct (node_at nodes k) as (d & EN); [rewrite nodes_len; lia|].
      destruct (squash_field a b k d A B ltac:(lia) EN va sa vb sb EA EB) as (vn & sn & E & H & _).
      rewrite (marked_nth _ _ _ _ EA). apply H. apply (marked_nth _ _ _ _ E). exact M.
    - intro H. assert (KB : (1 <= k < nfields m)%nat).
      { destruct H as [H|(H & _)]; [now apply (marked_bound a)|]. apply root_inside_iff in H; [lia|exact G]. }
      destruct (cell_at a k (upd_length a A)) as (va & sa & EA); [lia|]. destruct (cell_at b k (upd_length b B)) as (vb & sb & EB); [lia|].
      destruct (node_at nodes k) as (d & EN); [rewrite nodes_len; lia|].
      destruct (squash_field a b k d A B ltac:(lia) EN va sa vb sb EA EB) as (vn & sn & E & X & _).
      apply (marked_nth _ _ _ _ E). apply X. rewrite (marked_nth _ _ _ _ EA) in H. exact H.
  Qed.
  Lemma mbit_P k : mbit mask (Z.of_nat k) = true <-> P k.
  Proof. destruct MP as (_ & _ & _ & H). apply H. Qed.
  (** for requested fields, assigned is the same as sent *)
  Lemma carried_sent u j : upd u -> P j -> (carried nodes u 0 j <-> ValueSpec.sent nodes u (Some mask) j).
  Proof.
    intros A PJ. unfold ValueSpec.sent, selected. split.
    - intros (I & [M|(k & I1 & M & I2)]).
      + exists j. split; [split; [exact M|now apply mbit_P]|now left].
      + exists k. split; [split; [exact M|apply mbit_P; exact (around _ _ PJ I2)]|now right].
    - intros (k & (M & _) & [->|I]); [now apply carried_marked|]. pose proof (marked_bound u k A M) as KB. split.
      + apply root_inside_iff; [exact G|]. pose proof (inside_bound _ _ _ (good_lay m G) I). pose proof (inside_lt _ _ _ (good_lay m G) I). rewrite nodes_len in *. lia.
      + right. exists k. split; [apply root_inside_iff; [exact G|lia]|]. auto.
  Qed.
  Lemma squash_sent a b j : upd a -> upd b -> P j -> (ValueSpec.sent nodes (squash a b) (Some mask) j <-> ValueSpec.sent nodes a (Some mask) j \/ ValueSpec.sent nodes b (Some mask) j).
  Proof.
    intros A B PJ. rewrite <- (carried_sent a), <- (carried_sent b), <- (carried_sent (squash a b)) by (auto using squash_upd). unfold carried. pose proof (fun k => squash_marked a b k A B) as SM. setoid_rewrite SM. unfold carried. split.
    - intros (I & [[M|(_ & [M|(k & M)])]|(k & I1 & [M|(_ & [M|(k' & I3 & M & I4)])] & I2)]); try tauto.
      + right. split; [exact I|]. right. exists k. tauto.
      + left. split; [exact I|]. right. exists k. tauto.
      + right. split; [exact I|]. right. exists k. tauto.
      + right. split; [exact I|]. right. exists k'. split; [exact I3|]. split; [exact M|]. eapply Relation_Operators.t_trans; eauto.
    - intros [(I & [M|(k & I1 & M & I2)])|(I & [M|(k & I1 & M & I2)])]; split; auto.
      + right. exists k. tauto.
      + right. exists k. tauto.
  Qed.

  (** what field [j] holds after an update *)
  Variables (j : nat) (d : fdesc).
  Hypothesis EN : nth_error nodes j = Some d.
  Hypothesis FC : f_code d <> tc_Struct.
  Hypothesis PJ : P j.
  Definition held (u : list cell) : sto value := match nth_error u j with Some (_, s) => s | None => SNull end.
  Definition look (s : sto value) (u : list cell) : sto value :=
    match Nat.eq_dec (length u) (length nodes) with
    | left L => if sent_dec u j L then recv_sto received d (held u) else s
    | right _ => s
    end.
  Lemma look_sent s u : upd u -> ValueSpec.sent nodes u (Some mask) j -> look s u = recv_sto received d (held u).
  Proof. intros A H. unfold look. destruct (Nat.eq_dec _ _) as [L|L]; [|now destruct L; apply upd_length]. now destruct (sent_dec u j L). Qed.
  Lemma look_unsent s u : ~ ValueSpec.sent nodes u (Some mask) j -> look s u = s.
  Proof. intro H. unfold look. destruct (Nat.eq_dec _ _) as [L|L]; [|reflexivity]. now destruct (sent_dec u j L). Qed.
  Lemma recv_assigned s : node_ok d s -> recv_sto received d (as_assigned s) = recv_sto received d s.
  Proof.
    intro H. destruct s as [| | | | | | |ar]; try reflexivity. destruct ar as [|c l|l|l]; try reflexivity; destruct l; try reflexivity; cbn; unfold empty_arr; inversion H; subst.
    - match goal with E : pod_width _ = Some _ |- _ => rewrite E end. reflexivity.
    - match goal with E : f_code d = _ |- _ => rewrite E end. reflexivity.
    - match goal with E : f_code d = _ \/ _ |- _ => destruct E as [-> | ->] end; reflexivity.
    - match goal with E : f_code d = _ |- _ => rewrite E end. reflexivity.
  Qed.
  Lemma j_pos : (1 <= j < nfields m)%nat.
  Proof.
    assert (H : (j < nfields m)%nat) by (rewrite <- nodes_len; apply nth_error_Some; congruence). split; [|exact H].
    destruct j; [|lia]. destruct FC. now apply root_code.
  Qed.
  Lemma look_squash s a b : upd a -> upd b -> look s (squash a b) = look (look s a) b.
  Proof.
    intros A B. pose proof j_pos as JP. pose proof (squash_upd a b A B) as SQ.
    destruct (cell_at a j (upd_length a A)) as (va & sa & EA); [lia|]. destruct (cell_at b j (upd_length b B)) as (vb & sb & EB); [lia|].
    destruct (squash_field a b j d A B ltac:(lia) EN va sa vb sb EA EB) as (vn & sn & E & _ & H).
    replace (f_code d =? tc_Struct) with false in H by lia.
    destruct (sent_dec b j (upd_length b B)) as [SB|SB].
    - rewrite (look_sent _ b B SB), (look_sent _ _ SQ) by (apply squash_sent; auto). unfold held. unfold cell in *. rewrite E, EB, H.
      destruct (carried_dec b 0 j) as [C|C]; [|destruct C; now apply carried_sent]. apply recv_assigned.
      destruct B as ((_ & _ & CB) & _). exact (cells_ok_node _ _ _ _ _ _ CB EN EB).
    - rewrite (look_unsent _ b SB). destruct (sent_dec a j (upd_length a A)) as [SA|SA].
      + rewrite (look_sent _ a A SA), (look_sent _ _ SQ) by (apply squash_sent; auto). unfold held. unfold cell in *. rewrite E, EA, H.
        destruct (carried_dec b 0 j) as [C|C]; [|reflexivity]. destruct SB. now apply carried_sent.
      + rewrite (look_unsent _ a SA), look_unsent; [reflexivity|]. rewrite squash_sent by auto. tauto.
  Qed.
  Lemma look_unreal s a : upd a -> has_requested nodes mask a = false -> look s a = s.
  Proof.
    intros A R. apply look_unsent. intros (k & (M & B) & _). unfold has_requested in R.
    destruct (C22_testmask m nodes a mask P) as (b & E & H); [split; [exact G|split; [reflexivity|now apply upd_length]]|exact ST|exact MP|].
    rewrite E in R. subst b. pose proof (marked_bound a k A M). assert (X : false = true); [|discriminate]. apply H. exists k. split; [lia|]. split; [exact M|now apply mbit_P].
  Qed.
  Lemma receives_look us : forall c c' v s, receives nodes mask c us c' -> Forall upd us -> nth_error c j = Some (v, s) ->
    exists v', nth_error c' j = Some (v', fold_left look us s).
  Proof.
    induction us as [|u us IH]; intros c c' v s R F E; inversion R as [|? ? c1 ? ? UP R']; subst; [cbn; eauto|].
    inversion F as [|? ? A F']; subst. destruct UP as (L & UP). pose proof j_pos as JP.
    destruct (cell_at u j (upd_length u A)) as (vu & su & EU); [lia|].
    destruct (UP j d vu su v s EN EU E) as (vn & sn & E1 & H). replace (f_code d =? tc_Struct) with false in H by lia. destruct H as (H1 & H2).
    cbn [fold_left]. apply IH with (1 := R') (v := vn); [exact F'|]. rewrite E1. f_equal. f_equal.
    destruct (sent_dec u j (upd_length u A)) as [S|S].
    - rewrite (look_sent _ u A S). destruct (H1 S) as (_ & ->). unfold held. unfold cell in *. now rewrite EU.
    - rewrite (look_unsent _ u S). now destruct (H2 S).
  Qed.
End View.
