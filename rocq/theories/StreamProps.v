(** Theorems on successive updates: C78. *)
From Coq Require Import ZArith List Bool Lia ZifyBool ZifyNat.
From Verif Require Import Base BaseProofs WireModel WireSpec WireProofs SegModel SegSpec SegProofs
  BitMaskModel BitMaskSpec BitMaskProofs TypeModel TypeSpec TypeProofs TypeNameProofs LayoutProofs
  ValueModel ValueSpec ValueTypeProofs ValueSafeProofs ValueTopProofs ValueEncProofs ValueRoundProofs ValueUpdateProofs ValueProps
  MarkModel MarkSpec MarkProofs FieldProofs CopyModel CopySpec CopyProofs CopyProps MsgModel MsgSpec MsgProofs MsgProps StreamModel StreamSpec.
Import ListNotations.
Local Open Scope Z_scope.

Lemma exists_dec (Q : nat -> Prop) n : (forall k, {Q k} + {~ Q k}) -> (forall k, Q k -> (k < n)%nat) -> {exists k, Q k} + {~ exists k, Q k}.
Proof.
  intros D B. destruct (Exists_dec Q (seq 0 n) D) as [H|H]; rewrite Exists_exists in H.
  - left. destruct H as (k & _ & H). eauto.
  - right. intros (k & X). apply H. exists k. split; [apply in_seq; specialize (B k X); lia|exact X].
Qed.
Lemma inside_dec m i j : good_type m -> {is_inside (flatten m) i j} + {~ is_inside (flatten m) i j}.
Proof.
  intro G. pose proof (good_lay m G) as LY. destruct (nth_error (flatten m) i) as [d|] eqn:E.
  - destruct (le_lt_dec j i); [right; intro H; apply (inside_iff _ _ _ _ LY E) in H; lia|].
    destruct (le_lt_dec (i + f_size d) j); [right; intro H; apply (inside_iff _ _ _ _ LY E) in H; lia|]. left. apply (inside_iff _ _ _ _ LY E). lia.
  - right. intro H. destruct (inside_range _ _ _ LY H) as (d & X & _). congruence.
Qed.
Lemma sent_dec m cells mask j : good_type m -> length cells = length (flatten m) -> {sent (flatten m) cells mask j} + {~ sent (flatten m) cells mask j}.
Proof.
  intros G L. unfold sent. apply exists_dec with (n := length cells).
  - intro k. unfold selected. assert (D : {k = j \/ is_inside (flatten m) k j} + {~ (k = j \/ is_inside (flatten m) k j)}).
    { destruct (Nat.eq_dec k j); [left; now left|]. destruct (inside_dec m k j G); [left; now right|right; tauto]. }
    destruct D as [D|D]; [|right; tauto].
    destruct (nth_error cells k) as [([|], s)|]; [|right; intros (((x & H) & _) & _); discriminate..].
    destruct mask as [b|]; [|left; split; [split; [eauto|exact I]|exact D]].
    destruct (mbit b (Z.of_nat k)); [left; split; [split; eauto|exact D]|right; intros ((_ & H) & _); discriminate].
  - intros k (((s & H) & _) & _). apply nth_error_Some. congruence.
Qed.
Lemma kind_trans a b c : same_kind a b -> same_kind a c -> same_kind b c.
Proof. destruct a, b; cbn; try easy; destruct c; easy. Qed.

Lemma leaf_sel code o : leaf_code code = true -> sto_init code = Some (SSel o) -> code = tc_Any.
Proof.
  intros H E. pose proof (leaf_byte code H) as B.
  assert (K : forallb (fun n => let c := Z.of_nat n in
     negb (leaf_code c) || match sto_init c with Some (SSel _) => c =? tc_Any | _ => true end) (seq 0 256) = true) by (vm_compute; reflexivity).
  rewrite forallb_forall in K. specialize (K (Z.to_nat code)). cbv zeta in K. rewrite Z2Nat.id in K by lia.
  rewrite H, E in K. cbn [negb orb] in K. apply Z.eqb_eq. apply K. apply in_seq. lia.
Qed.
Lemma sel_code code name id cs o : describable (Mem code name id cs) = true -> sto_init code = Some (SSel o) -> code <> tc_Union -> code <> tc_Any -> False.
Proof.
  intros D E A B. destruct (describable_inv _ _ _ _ D) as [(M & W & N & F)|(M & LF & -> & ->)]; [|apply B; eapply leaf_sel; eauto].
  unfold has_members, is_array_of_compound in M. apply orb_true_iff in M as [M|M]; apply orb_true_iff in M as [M|M];
  apply Z.eqb_eq in M; subst; vm_compute in E; try discriminate; now apply A.
Qed.

(** the step on cells *)
Section Step.
  Variables (m : member) (G : good_type m) (NV : no_variants m).
  Let nodes := flatten m.
  Definition kinds (cells : list cell) : Prop := Forall2 (fun d c => exists s, sto_init (f_code d) = Some s /\ same_kind s (snd c)) nodes cells.
  Lemma kind_at cells j d c : kinds cells -> nth_error nodes j = Some d -> nth_error cells j = Some c -> exists s, sto_init (f_code d) = Some s /\ same_kind s (snd c).
  Proof.
    unfold kinds. generalize nodes. intros l F. revert j. induction F as [|d0 c0 l cells H F IH]; intros [|j] E1 E2; cbn in *; try discriminate; [|eauto].
    injection E1 as <-. injection E2 as <-. exact H.
  Qed.
  Lemma kinds_length cells : kinds cells -> length cells = length nodes.
  Proof. unfold kinds. generalize nodes. intros l. induction 1; cbn; congruence. Qed.
  Lemma kinds_intro cells : length cells = length nodes ->
    (forall j d c, nth_error nodes j = Some d -> nth_error cells j = Some c -> exists s, sto_init (f_code d) = Some s /\ same_kind s (snd c)) -> kinds cells.
  Proof.
    unfold kinds. generalize nodes. intro l. revert cells. induction l as [|d l IH]; intros [|c cells] L H; try discriminate; constructor.
    - apply (H 0%nat d c); reflexivity.
    - apply IH; [now injection L|]. intros j. apply (H (S j)).
  Qed.
  Lemma no_sel d s : In d nodes -> sto_init (f_code d) = Some s -> forall o, s <> SSel o.
  Proof.
    intros I E o ->. unfold no_variants in NV. rewrite Forall_forall in NV. destruct (NV d I) as (A & B).
    destruct (flatten_nodes (fun m => describable m = true) describable_hereditary m (good_describable m G) d I) as (m' & D' & N).
    rewrite (node_code _ _ N) in E, A, B. destruct m' as [code name id cs]. cbn [m_code] in *.
    exact (sel_code code name id cs o D' E A B).
  Qed.
  Lemma sync_step fuel fp same (cache delta : list cell) : kinds cache -> kinds delta ->
    exists cache' delta', cache_sync fuel fp same cache delta = (ROk, cache', delta') /\ kinds cache' /\ kinds delta' /\
      forall j cm cs dm ds, nth_error cache j = Some (cm, cs) -> nth_error delta j = Some (dm, ds) ->
        nth_error cache' j = Some (cm, if dm then ds else cs) /\ nth_error delta' j = Some (dm, if dm then ds else cs).
  Proof.
    intros K1 K2. pose proof (kinds_length _ K1) as L1. pose proof (kinds_length _ K2) as L2.
    assert (NS : forall cells j (b : bool) (s : sto value) o, kinds cells -> nth_error cells j = Some (b, s) -> s <> SSel o).
    { intros cells j b s o K E ->. destruct (nth_error nodes j) as [d|] eqn:D.
      - destruct (kind_at _ _ _ _ K D E) as (s0 & I0 & SK). pose proof (no_sel d s0 (nth_error_In _ _ D) I0) as N. cbn in SK. destruct s0; try contradiction. now apply (N o0).
      - apply nth_error_None in D. assert (nth_error cells j <> None) as H by congruence. apply nth_error_Some in H. rewrite (kinds_length _ K) in H. lia. }
    destruct (C55_sync_partial fuel fp same cache delta) as (cache' & delta' & X & LC & LD & H).
    - clear NS L1 L2. revert K1 K2. unfold kinds. generalize nodes. intros l F. revert delta. induction F as [|d c l cells (s & I0 & SK) F IH]; intros delta F2; inversion F2; subst; constructor.
      + match goal with E : exists s, _ |- _ => destruct E as (s' & I1 & SK') end. assert (s' = s) by congruence. subst. eapply kind_trans; eauto.
      + now apply IH.
    - intros i cm cs dm ds k v E1 E2 Q. exfalso. destruct dm; [exact (NS _ _ _ _ _ K2 E2 Q)|exact (NS _ _ _ _ _ K1 E1 Q)].
    - assert (P : forall j cm cs dm ds, nth_error cache j = Some (cm, cs) -> nth_error delta j = Some (dm, ds) ->
        nth_error cache' j = Some (cm, if dm then ds else cs) /\ nth_error delta' j = Some (dm, if dm then ds else cs)).
      { intros j cm cs dm ds E1 E2. destruct (H j cm cs dm ds E1 E2) as (cs' & ds' & Y1 & Y2 & Z).
        assert (CS : forall (cells : list cell) b s s', kinds cells -> nth_error cells j = Some (b, s) -> cloned_sto fuel fp same s s' -> s' = s).
        { intros cells b s s' K E CL. destruct s; try exact CL. exfalso. exact (NS _ _ _ _ _ K E eq_refl). }
        destruct dm; destruct Z as (-> & Z).
        - rewrite (CS _ _ _ _ K2 E2 Z) in Y1. auto.
        - rewrite (CS _ _ _ _ K1 E1 Z) in Y2. auto. }
      exists cache', delta'. split; [exact X|].
      assert (KK : forall out : list cell, length out = length nodes -> (forall j c, nth_error out j = Some c -> exists b1 b2 s, snd c = s /\ (nth_error cache j = Some (b1, s) \/ nth_error delta j = Some (b2, s))) -> kinds out).
      { intros out L0 HH. apply kinds_intro; [exact L0|]. intros j d c D E. destruct (HH j c E) as (b1 & b2 & s & <- & [Q|Q]); [exact (kind_at _ _ _ _ K1 D Q)|exact (kind_at _ _ _ _ K2 D Q)]. }
      assert (AT : forall j, (j < length nodes)%nat -> exists cm cs dm ds, nth_error cache j = Some (cm, cs) /\ nth_error delta j = Some (dm, ds)).
      { intros j J. destruct (nth_error cache j) as [(cm, cs)|] eqn:E1; [|apply nth_error_None in E1; lia].
        destruct (nth_error delta j) as [(dm, ds)|] eqn:E2; [|apply nth_error_None in E2; lia]. eauto 8. }
      split; [|split; [|exact P]]; (apply KK; [unfold cell in *; congruence|]); intros j c E.
      + assert (J : (j < length nodes)%nat) by (replace (length nodes) with (length cache') by (unfold cell in *; congruence); apply nth_error_Some; congruence). destruct (AT j J) as (cm & cs & dm & ds & E1 & E2).
        destruct (P _ _ _ _ _ E1 E2) as (Q & _). rewrite Q in E. injection E as <-. cbn [snd]. exists cm, dm, (if dm then ds else cs). split; [reflexivity|]. destruct dm; auto.
      + assert (J : (j < length nodes)%nat) by (replace (length nodes) with (length delta') by (unfold cell in *; congruence); apply nth_error_Some; congruence). destruct (AT j J) as (cm & cs & dm & ds & E1 & E2).
        destruct (P _ _ _ _ _ E1 E2) as (_ & Q). rewrite Q in E. injection E as <-. cbn [snd]. exists cm, dm, (if dm then ds else cs). split; [reflexivity|]. destruct dm; auto.
  Qed.

  (** what an update leaves in a new Value *)
  Lemma copy_kinds u v' : update_of m u -> copy_of_marked m (u_value u) (Some (u_mask u)) v' -> v_nodes v' = nodes /\ kinds (v_cells v') /\
    forall j d mk ss, nth_error nodes j = Some d -> f_code d <> tc_Struct -> nth_error (v_cells (u_value u)) j = Some (mk, ss) ->
      exists b s, nth_error (v_cells v') j = Some (b, s) /\ (b = true <-> carries m u j) /\ (b = true -> s = recv_sto received d ss).
  Proof.
    intros (V & MF) (N & old & NW & (LU & UP)). split; [exact N|].
    assert (LV : length (v_cells (u_value u)) = length nodes). { destruct V as (_ & E & CK). inversion CK as [n c F EQ]. rewrite <- EQ in E. cbn [v_nodes v_cells] in *. subst n. exact (pairs_length _ _ _ F). }
    assert (old = fresh m) by (now apply new_value_unique). subst old.
    assert (KF : kinds (v_cells (fresh m))) by apply (fresh_storage m G). pose proof (kinds_length _ KF) as LF.
    assert (AT : forall j d, nth_error nodes j = Some d -> exists mk ss vo so, nth_error (v_cells (u_value u)) j = Some (mk, ss) /\ nth_error (v_cells (fresh m)) j = Some (vo, so)).
    { intros j d D. assert (J : (j < length nodes)%nat) by (apply nth_error_Some; congruence).
      destruct (nth_error (v_cells (u_value u)) j) as [(mk, ss)|] eqn:E1; [|apply nth_error_None in E1; lia].
      destruct (nth_error (v_cells (fresh m)) j) as [(dm, ds)|] eqn:E2; [|apply nth_error_None in E2; lia]. eauto 8. }
    split.
    - apply kinds_intro; [unfold cell in *; congruence|]. intros j d c D E. destruct (AT j d D) as (mk & ss & vo & so & E1 & E2).
      destruct (UP j d mk ss vo so D E1 E2) as (vn & sn & E3 & H). unfold cell in *. rewrite E in E3. injection E3 as ->. cbn [snd].
      destruct (kind_at _ _ _ _ KF D E2) as (s0 & I0 & SK). exists s0. split; [exact I0|]. cbn [snd] in SK.
      destruct (f_code d =? tc_Struct); [destruct H as (-> & _); exact SK|]. destruct H as (H1 & H2).
      destruct (sent_dec m (v_cells (u_value u)) (Some (u_mask u)) j G LV) as [S|S]; [|destruct (H2 S) as (_ & ->); exact SK].
      destruct (H1 S) as (_ & ->). destruct V as (_ & E0 & CK). inversion CK as [n c F EQ]. rewrite <- EQ in E0, E1. cbn [v_nodes v_cells] in *. subst n.
      assert (NO : node_ok d ss).
      { clear - F D E1. fold nodes in F. revert j D E1. induction F as [|d0 c0 l cells A F IH]; intros [|j] D E1; cbn in *; try discriminate; [|eauto]. injection D as <-. injection E1 as ->. exact A. }
      pose proof (node_ok_kind d ss s0 NO I0) as SK1.
      destruct s0, ss; cbn in SK1 |- *; try contradiction; try exact Logic.I; try (destruct o as [(?, ?)|]; exact Logic.I); try (destruct o0 as [(?, ?)|]; exact Logic.I).
      all: match goal with |- context [match ?a with ANull => _ | _ => _ end] => destruct a; exact Logic.I end.
    - intros j d mk ss D NS E1. destruct (AT j d D) as (mk' & ss' & vo & so & E1' & E2). unfold cell in *. rewrite E1 in E1'. injection E1' as <- <-.
      destruct (UP j d mk ss vo so D E1 E2) as (vn & sn & E3 & H). exists vn, sn. split; [exact E3|]. destruct (f_code d =? tc_Struct) eqn:SC; [lia|]. destruct H as (H1 & H2).
      assert (vo = false). { destruct NW as (_ & NW). clear - NW D E2. revert j D E2. fold nodes in NW. induction NW as [|d0 c l cells (A & B) F IH]; intros [|j] D E2; cbn in *; try discriminate; [|eauto].
        injection E2 as ->. exact A. }
      subst vo. destruct (sent_dec m (v_cells (u_value u)) (Some (u_mask u)) j G LV) as [S|S].
      + destruct (H1 S) as (-> & ->). split; [split; auto|auto].
      + destruct (H2 S) as (-> & ->). split; [split; [discriminate|intro; contradiction]|discriminate].
  Qed.
End Step.

(** content of field [j] after updates up to [i], from what the prototype held *)
Definition latest_from (m : member) (start : sto value) (us : list update) (i j : nat) (d : fdesc) (s : sto value) : Prop :=
  (exists k u mk ss, (k <= i)%nat /\ nth_error us k = Some u /\ carries m u j /\ nth_error (v_cells (u_value u)) j = Some (mk, ss) /\
     s = recv_sto received d ss /\ forall k' u', (k < k' <= i)%nat -> nth_error us k' = Some u' -> ~ carries m u' j) \/
  ((forall k u, (k <= i)%nat -> nth_error us k = Some u -> ~ carries m u j) /\ s = start).
Definition delivered (m : member) (us : list update) (p : value) (ds : list value) : Prop :=
  length ds = length us /\ forall i u v, nth_error us i = Some u -> nth_error ds i = Some v ->
    v_nodes v = flatten m /\
    forall j d b start, nth_error (flatten m) j = Some d -> f_code d <> tc_Struct -> nth_error (v_cells p) j = Some (b, start) ->
      exists mk s, nth_error (v_cells v) j = Some (mk, s) /\ (mk = true <-> carries m u j) /\ latest_from m start us i j d s.

Lemma step_later m u (b : bool) us start s1 i j d s sv : (b = true <-> carries m u j) -> (b = true -> sv = recv_sto received d s1) ->
  (exists mk, nth_error (v_cells (u_value u)) j = Some (mk, s1)) ->
  latest_from m (if b then sv else start) us i j d s -> latest_from m start (u :: us) (S i) j d s.
Proof.
  intros CB SB (mk0 & E0) [(k & u' & mk & ss & K & N & C & E & EQ & L)|(N & EQ)].
  - left. exists (S k), u', mk, ss. repeat (split; [lia || assumption|]). intros [|k'] u2 K' N2; [lia|]. apply (L k'); [lia|exact N2].
  - destruct b.
    + left. exists 0%nat, u, mk0, s1. split; [lia|]. split; [reflexivity|]. split; [now apply CB|]. split; [exact E0|]. split; [rewrite EQ; now apply SB|].
      intros [|k'] u2 K' N2; [lia|]. apply (N k'); [lia|exact N2].
    + right. split; [|exact EQ]. intros [|k'] u2 K' N2; [injection N2 as <-; intro C; apply CB in C; discriminate|]. apply (N k'); [lia|exact N2].
Qed.

Lemma deliver_all m cmd junk others be ioid us (writer : update -> bool -> wbuf -> outcome wbuf) : good_type m -> no_variants m -> Forall (update_of m) us ->
  (forall u p, update_of m u -> v_nodes p = flatten m ->
     arrives be (writer u) (client_reads cmd junk (fun i => if i =? ioid then Some {| ri_proto := Some p; ri_fl := true |} else others i))
       (fun r => exists v', got r = Some v' /\ copy_of_marked m (u_value u) (Some (u_mask u)) v')) ->
  (forall u e1 e2, (forall host pre, writer u host (outbuf pre be) = OK (outbuf (pre ++ e1) be)) -> (forall host pre, writer u host (outbuf pre be) = OK (outbuf (pre ++ e2) be)) -> e1 = e2) ->
  exists bodies, Forall2 (fun u e => forall host pre, writer u host (outbuf pre be) = OK (outbuf (pre ++ e) be)) us bodies /\
    forall fuel fp same host cache p, Forall (fun e => (length e < fuel)%nat) bodies -> v_nodes p = flatten m -> kinds m (v_cells p) ->
      exists ds, deliver cmd junk others be fuel fp same host ioid p cache bodies = Some ds /\ delivered m us p ds.
Proof.
  intros G NV F W UQ. induction F as [|u us HU F IH].
  - exists []. split; [constructor|]. intros. exists []. split; [reflexivity|]. split; [reflexivity|]. intros [|i]; discriminate.
  - destruct IH as (bodies & FB & IH). destruct (W u (fresh m) HU eq_refl) as (e & _ & _ & WE & _). exists (e :: bodies). split; [constructor; assumption|].
    intros fuel fp same host cache p FL PN KP. inversion FL as [|? ? LE FL']; subst.
    destruct (W u p HU PN) as (e' & x & (v' & GX & CP) & WE' & R). assert (e' = e) by (eapply UQ; eauto). subst e'. destruct (R host fuel cache LE) as (RD & _).
    destruct (copy_kinds m G u v' HU CP) as (VN & KV & CV). destruct (sync_step m G NV fuel fp same _ _ KP KV) as (c' & d' & SY & K1 & K2 & AT).
    destruct (IH fuel fp same host cache (Val (flatten m) c') FL' eq_refl K1) as (ds & DD & LD & DL).
    exists (Val (flatten m) d' :: ds). split.
    + cbn [deliver]. unfold receive. rewrite RD, GX. unfold cell in *. rewrite SY, PN, VN, DD. reflexivity.
    + split; [cbn; congruence|]. intros [|i] u0 v0 N1 N2; cbn [nth_error] in N1, N2.
      * injection N1 as <-. injection N2 as <-. split; [reflexivity|]. intros j d b start D NS P. cbn [v_cells].
        destruct (nth_error (v_cells (u_value u)) j) as [(mk, ss)|] eqn:E.
        2:{ exfalso. apply nth_error_None in E. destruct HU as ((_ & E0 & CK) & _). inversion CK as [n c F0 EQ]. rewrite <- EQ in E, E0. cbn [v_nodes v_cells] in *. subst n.
            pose proof (pairs_length _ _ _ F0). assert (nth_error (flatten m) j <> None) as Q by congruence. apply nth_error_Some in Q. unfold cell in *. lia. }
        destruct (CV j d mk ss D NS E) as (b' & s & E' & CB & SB). destruct (AT j b start b' s P E') as (_ & Q). exists b', (if b' then s else start). split; [exact Q|]. split; [exact CB|].
        destruct b'.
        -- left. exists 0%nat, u, mk, ss. repeat (split; [lia || reflexivity || assumption|]). split; [now apply CB|]. split; [exact E|]. split; [now apply SB|]. intros; lia.
        -- right. split; [|reflexivity]. intros k u1 K N1. assert (k = 0%nat) by lia. subst k. injection N1 as <-. intro C. apply CB in C. discriminate.
      * destruct (DL i u0 v0 N1 N2) as (VN0 & H). split; [exact VN0|]. intros j d b start D NS P.
        destruct (nth_error (v_cells (u_value u)) j) as [(mk, ss)|] eqn:E.
        2:{ exfalso. apply nth_error_None in E. destruct HU as ((_ & E0 & CK) & _). inversion CK as [n c F0 EQ]. rewrite <- EQ in E, E0. cbn [v_nodes v_cells] in *. subst n.
            pose proof (pairs_length _ _ _ F0). assert (nth_error (flatten m) j <> None) as Q by congruence. apply nth_error_Some in Q. unfold cell in *. lia. }
        destruct (CV j d mk ss D NS E) as (b' & s & E' & CB & SB). destruct (AT j b start b' s P E') as (Q & _).
        destruct (H j d b (if b' then s else start) D NS Q) as (mk1 & s1 & X1 & X2 & X3). exists mk1, s1. split; [exact X1|]. split; [exact X2|].
        eapply step_later; eauto.
Qed.
Lemma delivered_new m us p ds : new_value m p -> delivered m us p ds ->
  length ds = length us /\ forall i u v, nth_error us i = Some u -> nth_error ds i = Some v ->
    v_nodes v = flatten m /\
    forall j d, nth_error (flatten m) j = Some d -> f_code d <> tc_Struct ->
      exists mk s, nth_error (v_cells v) j = Some (mk, s) /\ (mk = true <-> carries m u j) /\ latest m us i j d s.
Proof.
  intros (_ & NW) (L & H). split; [exact L|]. intros i u v N1 N2. destruct (H i u v N1 N2) as (VN & K). split; [exact VN|]. intros j d D NS.
  assert (exists b s, nth_error (v_cells p) j = Some (b, s) /\ sto_init (f_code d) = Some s) as (b & s0 & E & I0).
  { clear - NW D. revert j D. induction NW as [|d0 (b, s) l cells (A & B) F IH]; intros [|j] D; cbn in *; try discriminate; [|eauto]. injection D as <-. eauto. }
  destruct (K j d b s0 D NS E) as (mk & s & X1 & X2 & [X3|(X3 & ->)]); exists mk; eexists; (split; [exact X1|]); (split; [exact X2|]); [left; exact X3|right; auto].
Qed.
Lemma writer_unique (writer : bool -> wbuf -> outcome wbuf) be e1 e2 : (forall host pre, writer host (outbuf pre be) = OK (outbuf (pre ++ e1) be)) ->
  (forall host pre, writer host (outbuf pre be) = OK (outbuf (pre ++ e2) be)) -> e1 = e2.
Proof. intros H1 H2. specialize (H1 true []). rewrite H2 in H1. cbn [app] in H1. unfold outbuf in H1. now injection H1 as E. Qed.
Lemma new_kinds m p : good_type m -> new_value m p -> v_nodes p = flatten m /\ kinds m (v_cells p).
Proof. intros G N. rewrite (new_value_unique m p N G). exact (fresh_storage m G). Qed.

(** ** C78: successive updates *)

(** The updates [us] of a subscription are sent as [bodies]; a client which starts with the prototype [p] it made from the reply to
    its request delivers one Value per update.  In it a field is marked if and only if that very update carried it, and every
    field, marked or not, holds what was last sent of it.  Not shown: types with a Union or Any (see C55). *)
Definition delivers_latest (m : member) (cmd ioid : Z) (writer : update -> bool -> wbuf -> outcome wbuf) (be : bool) (us : list update) : Prop :=
  exists bodies, Forall2 (fun u e => forall host pre, writer u host (outbuf pre be) = OK (outbuf (pre ++ e) be)) us bodies /\
    forall junk others fuel fp same host cache p, Forall (fun e => (length e < fuel)%nat) bodies -> new_value m p ->
      exists ds, deliver cmd junk others be fuel fp same host ioid p cache bodies = Some ds /\ length ds = length us /\
        forall i u v, nth_error us i = Some u -> nth_error ds i = Some v -> v_nodes v = flatten m /\
          forall j d, nth_error (flatten m) j = Some d -> f_code d <> tc_Struct ->
            exists mk s, nth_error (v_cells v) j = Some (mk, s) /\ (mk = true <-> carries m u j) /\ latest m us i j d s.
Lemma deliver_latest m cmd be ioid us writer : good_type m -> no_variants m -> Forall (update_of m) us ->
  (forall junk others u p, update_of m u -> v_nodes p = flatten m ->
     arrives be (writer u) (client_reads cmd junk (fun i => if i =? ioid then Some {| ri_proto := Some p; ri_fl := true |} else others i))
       (fun r => exists v', got r = Some v' /\ copy_of_marked m (u_value u) (Some (u_mask u)) v')) ->
  delivers_latest m cmd ioid writer be us.
Proof.
  intros G NV F W. pose proof (fun junk others => deliver_all m cmd junk others be ioid us writer G NV F (W junk others) (fun u => writer_unique (writer u) be)) as H.
  destruct (H (0, st_ok) (fun _ => None)) as (bodies & FB & _). exists bodies. split; [exact FB|].
  intros junk others fuel fp same host cache p FL NW. destruct (H junk others) as (bodies' & FB' & K).
  assert (bodies' = bodies). { clear - FB FB'. revert bodies FB. induction FB' as [|u e us bs A F IH]; intros b F2; inversion F2; subst; [reflexivity|]. f_equal; [eapply writer_unique; eauto|auto]. }
  subst bodies'. destruct (new_kinds m p G NW) as (PN & KP). destruct (K fuel fp same host cache p FL PN KP) as (ds & DD & DL).
  exists ds. split; [exact DD|]. exact (delivered_new m us p ds NW DL).
Qed.
Theorem C78_monitor_partial : forall be m ioid us, u32 ioid -> updatable m -> no_variants m -> Forall (update_of m) us ->
  delivers_latest m 13 ioid (fun u host => r_mon_update host ioid (u_value u) (u_mask u)) be us.
Proof.
  intros be m ioid us HI UP NV F. apply deliver_latest; [apply UP|exact NV|exact F|]. intros junk others u p (V & MF) PN.
  destruct (C77_mon_update be junk (fun i => if i =? ioid then Some {| ri_proto := Some p; ri_fl := true |} else others i) p ioid m (u_value u) (u_mask u) HI UP V MF PN) as (e & x & (v' & -> & C) & W & R).
  { now rewrite Z.eqb_refl. }
  exists e, (AMon ioid 0 st_ok (Some v') false). split; [exists v'; split; [reflexivity|exact C]|]. split; [exact W|exact R].
Qed.
(** Likewise for a GET which is executed again and again, and for the values fetched by a PUT. *)
Theorem C78_get_partial : forall be m (put : bool) ioid us, u32 ioid -> updatable m -> no_variants m -> Forall (update_of m) us ->
  delivers_latest m (if put then 11 else 10) ioid (fun u host => r_gpr host ioid (if put then 64 else 0) [] (BValid (u_value u) (u_mask u))) be us.
Proof.
  intros be m put ioid us HI UP NV F. apply deliver_latest; [apply UP|exact NV|exact F|]. intros junk others u p (V & MF) PN.
  destruct (C77_get be put junk (fun i => if i =? ioid then Some {| ri_proto := Some p; ri_fl := true |} else others i) true p ioid m (u_value u) (u_mask u) HI UP V MF PN) as (e & x & (v' & -> & C) & W & R).
  { now rewrite Z.eqb_refl. }
  exists e, (AGpr (if put then KPut else KGet) ioid (if put then 64 else 0) st_ok (Some v')). split; [exists v'; split; [reflexivity|exact C]|]. split; [exact W|exact R].
Qed.

(** ** Examples: the hypotheses are met *)
Definition st_proto : value := Val (flatten cp_type) [(false, SNull); (false, SInt 0); (false, SNull); (false, SStr []); (false, SArr ANull)].
Definition st_cells (n : bool * Z) (t : bool * str) : list cell := [(false, SNull); (fst n, SInt (snd n)); (false, SNull); (fst t, SStr (snd t)); (false, SArr ANull)].
Definition st_mask : bmask := match bm_init [1; 3] 5 with Some m => m | None => bm_empty end.
Definition st_updates : list update :=
  [{| u_value := Val (flatten cp_type) (st_cells (true, 7) (false, [])); u_mask := st_mask |};
   {| u_value := Val (flatten cp_type) (st_cells (false, 1) (true, [120])); u_mask := st_mask |}].
Example C78_satisfiable : updatable cp_type /\ no_variants cp_type /\ new_value cp_type st_proto /\ Forall (update_of cp_type) st_updates /\
  (forall u j, nth_error st_updates 0 = Some u -> carries cp_type u j -> j = 1%nat).
Proof.
  split; [split; [exact cp_good|split; reflexivity]|]. split; [repeat (constructor; [split; discriminate|]); constructor|].
  split; [split; [reflexivity|]; repeat (constructor; [split; reflexivity|]); constructor|].
  assert (OKV : forall n t, signed_in 2 (snd n) -> zlen (snd t) < 2 ^ 32 -> value_of cp_type (Val (flatten cp_type) (st_cells n t))).
  { intros n t HN HT. split; [exact cp_good|]. split; [reflexivity|]. constructor. repeat (apply Forall2_cons; [|]); [..|apply Forall2_nil]; cbn [snd];
    [now apply ok_struct|eapply ok_int; [reflexivity|exact HN]|now apply ok_struct|apply ok_str; [reflexivity|apply Z.lt_succ_r; exact HT]|now apply ok_untyped]. }
  assert (MF : mask_fits (flatten cp_type) (Some st_mask)).
  { replace st_mask with (BM [10] 5) by (vm_compute; reflexivity). split; [|reflexivity]. split; [constructor; [lia|constructor]|]. cbn [bm_size bm_words]. unfold zlen. cbn [length]. lia. }
  split; [repeat (constructor; [split; [apply OKV; [unfold signed_in; cbn; lia|reflexivity]|exact MF]|]); constructor|].
  intros u j EU (k & ((s & E) & _) & [->|I]); injection EU as <-.
  - do 5 (destruct j as [|j]; [try discriminate E; reflexivity|]). destruct j; discriminate E.
  - destruct k as [|[|[|[|[|k]]]]]; try discriminate E; [exfalso|destruct k; discriminate E].
    assert (H : nth_error (flatten cp_type) 1 = Some (nth 1 (flatten cp_type) (fd_new 0))) by reflexivity.
    apply (inside_iff _ _ _ _ (good_lay _ cp_good) H) in I. revert I. replace (f_size (nth 1 (flatten cp_type) (fd_new 0))) with 1%nat by reflexivity. lia.
Qed.
(** "n" is sent, then "t". *)
Example C78_example : forall fp same others,
  deliver 13 (0, st_ok) others true 40 fp same true 5 st_proto [] [[0; 0; 0; 5; 0; 1; 2; 0; 7; 0]; [0; 0; 0; 5; 0; 1; 8; 1; 120; 0]] =
  Some [Val (flatten cp_type) (st_cells (true, 7) (false, [])); Val (flatten cp_type) (st_cells (false, 7) (true, [120]))].
Proof. intros. reflexivity. Qed.

Print Assumptions C78_monitor_partial.
Print Assumptions C78_get_partial.
