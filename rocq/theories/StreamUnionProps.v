(** Theorems on successive updates with Union and Any fields: C78. *)
From Coq Require Import ZArith List Bool Lia ZifyBool ZifyNat.
From Verif Require Import Base BaseProofs WireModel WireSpec WireProofs SegModel SegSpec SegProofs
  BitMaskModel BitMaskSpec BitMaskProofs TypeModel TypeSpec TypeProofs TypeNameProofs LayoutProofs
  ValueModel ValueSpec ValueTypeProofs ValueSafeProofs ValueTopProofs ValueEncProofs ValueRoundProofs ValueUpdateProofs ValueProps
  MarkModel MarkSpec MarkProofs FieldProofs CopyModel CopySpec CopyProofs CopyProps MsgModel MsgSpec MsgProofs MsgProps StreamModel StreamSpec
  StreamProofs StreamProps.
Import ListNotations.
Local Open Scope Z_scope.

Definition clonable (cells : list cell) : Prop := forall j (b : bool) k v, nth_error cells j = Some (b, SSel (Some (k, v))) -> full v.

Lemma cloned_alike fuel fp same s s' : exact_widening fp -> types_shared same -> (forall k v, s = SSel (Some (k, v)) -> full v) ->
  cloned_sto (S (S fuel)) fp same s s' -> alike_field s s' /\ (forall k v, s' = SSel (Some (k, v)) -> full v).
Proof.
  intros FW TS F C. destruct s; try (cbn [cloned_sto] in C; subst; split; [reflexivity|discriminate]).
  destruct o as [(k, v)|]; cbn [cloned_sto] in C; [|subst; split; [reflexivity|discriminate]].
  destruct C as (v' & E & ->). destruct (clone_full fuel fp same v FW TS (F _ _ eq_refl)) as (w & E' & FU & A). rewrite E in E'. injection E' as <-.
  split; [exists v'; auto|]. intros k' v0 Q. injection Q as <- <-. exact FU.
Qed.

Lemma sync_variants m fuel fp same (cache delta : list cell) : exact_widening fp -> types_shared same -> good_type m ->
  kinds m cache -> kinds m delta -> clonable cache -> clonable delta ->
  exists cache' delta', cache_sync (S (S fuel)) fp same cache delta = (ROk, cache', delta') /\ kinds m cache' /\ clonable cache' /\
    forall j cm cs dm ds, nth_error cache j = Some (cm, cs) -> nth_error delta j = Some (dm, ds) ->
      exists s1 s2, nth_error cache' j = Some (cm, s1) /\ nth_error delta' j = Some (dm, s2) /\
        alike_field (if dm then ds else cs) s1 /\ alike_field (if dm then ds else cs) s2.
Proof.
  intros FW TS G K1 K2 C1 C2. pose proof (kinds_length m _ K1) as L1. pose proof (kinds_length m _ K2) as L2.
  destruct (C55_sync_partial (S (S fuel)) fp same cache delta) as (cache' & delta' & X & LC & LD & H).
  - clear L1 L2 C1 C2. revert K1 K2. unfold kinds. generalize (flatten m). intros l F. revert delta. induction F as [|d c l cells (s & I0 & SK) F IH]; intros delta F2; inversion F2; subst; constructor.
    + match goal with E : exists s, _ |- _ => destruct E as (s' & I1 & SK') end. assert (s' = s) by congruence. subst. eapply kind_trans; eauto.
    + now apply IH.
  - intros i cm cs dm ds k v E1 E2 Q. assert (F : full v) by (destruct dm; subst; [exact (C2 _ _ _ _ E2)|exact (C1 _ _ _ _ E1)]).
    destruct (clone_full fuel fp same v FW TS F) as (w & E & _). eauto.
  - assert (P : forall j cm cs dm ds, nth_error cache j = Some (cm, cs) -> nth_error delta j = Some (dm, ds) ->
        exists s1 s2, nth_error cache' j = Some (cm, s1) /\ nth_error delta' j = Some (dm, s2) /\
          alike_field (if dm then ds else cs) s1 /\ alike_field (if dm then ds else cs) s2 /\ (forall k v, s1 = SSel (Some (k, v)) -> full v)).
    { intros j cm cs dm ds E1 E2. destruct (H j cm cs dm ds E1 E2) as (s1 & s2 & Y1 & Y2 & Z). exists s1, s2. split; [exact Y1|]. split; [exact Y2|].
      destruct dm; destruct Z as (-> & Z).
      - destruct (cloned_alike fuel fp same ds s1 FW TS) as (A & B); [intros k v ->; exact (C2 _ _ _ _ E2)|exact Z|].
        split; [exact A|]. split; [apply alike_field_refl|exact B].
      - destruct (cloned_alike fuel fp same cs s2 FW TS) as (A & B); [intros k v ->; exact (C1 _ _ _ _ E1)|exact Z|].
        split; [apply alike_field_refl|]. split; [exact A|]. intros k v ->. exact (C1 _ _ _ _ E1). }
    assert (AT : forall j, (j < length (flatten m))%nat -> exists cm cs dm ds, nth_error cache j = Some (cm, cs) /\ nth_error delta j = Some (dm, ds)).
    { intros j J. destruct (nth_error cache j) as [(cm, cs)|] eqn:E1; [|apply nth_error_None in E1; lia].
      destruct (nth_error delta j) as [(dm, ds)|] eqn:E2; [|apply nth_error_None in E2; lia]. eauto 8. }
    exists cache', delta'. split; [exact X|]. split; [|split].
    + apply kinds_intro; [unfold cell in *; congruence|]. intros j d c D E.
      destruct (AT j ltac:(apply nth_error_Some; congruence)) as (cm & cs & dm & ds & E1 & E2). destruct (P _ _ _ _ _ E1 E2) as (s1 & s2 & Q1 & _ & A & _).
      unfold cell in *. rewrite Q1 in E. injection E as <-. cbn [snd].
      assert (exists s, sto_init (f_code d) = Some s /\ same_kind s (if dm then ds else cs)) as (s & I0 & SK) by (destruct dm; [exact (kind_at m _ _ _ _ K2 D E2)|exact (kind_at m _ _ _ _ K1 D E1)]).
      exists s. split; [exact I0|]. destruct (if dm then ds else cs); cbn [alike_field] in A; try (rewrite A; exact SK).
      destruct o as [(k, v)|]; [destruct A as (w & -> & _); destruct s; try contradiction; exact Logic.I|rewrite A; exact SK].
    + intros j b k v E. assert (J : (j < length (flatten m))%nat) by (replace (length (flatten m)) with (length cache') by (unfold cell in *; congruence); apply nth_error_Some; congruence).
      destruct (AT j J) as (cm & cs & dm & ds & E1 & E2). destruct (P _ _ _ _ _ E1 E2) as (s1 & s2 & Q1 & _ & _ & _ & B). unfold cell in *. rewrite Q1 in E. injection E as <- E. exact (B _ _ E).
    + intros j cm cs dm ds E1 E2. destruct (P _ _ _ _ _ E1 E2) as (s1 & s2 & A & B & C & D & _). eauto 8.
Qed.

Lemma new_clonable m p : good_type m -> new_value m p -> clonable (v_cells p).
Proof.
  intros G (_ & NW) j b k v E. exfalso. apply nodes_at in NW. destruct NW as (L & NW).
  destruct (nth_error (flatten m) j) as [d|] eqn:D.
  - destruct (NW j d _ D E) as (_ & I0). cbn [snd] in I0. unfold sto_init in I0.
    repeat match type of I0 with context [if ?b then _ else _] => destruct b end; discriminate.
  - apply nth_error_None in D. assert (j < length (v_cells p))%nat by (apply nth_error_Some; unfold cell in *; congruence). unfold cell in *. lia.
Qed.
Lemma copy_clonable m u v' : good_type m -> update_of m u -> plain_contents (u_value u) -> copy_of_marked m (u_value u) (Some (u_mask u)) v' -> clonable (v_cells v').
Proof.
  intros G (V & MF) PC (N & old & NW & (LU & UP)) j b k v E.
  pose proof (value_length m _ V) as LV. pose proof (new_clonable m old G NW) as CO.
  assert (LO : length (v_cells old) = length (flatten m)) by (destruct NW as (_ & NW); apply nodes_at in NW; destruct NW as (L & _); exact L).
  destruct (nth_error (flatten m) j) as [d|] eqn:D.
  2:{ exfalso. apply nth_error_None in D. assert (j < length (v_cells v'))%nat by (apply nth_error_Some; unfold cell in *; congruence). unfold cell in *. lia. }
  assert (J : (j < length (flatten m))%nat) by (apply nth_error_Some; congruence).
  destruct (nth_error (v_cells (u_value u)) j) as [(mk, ss)|] eqn:E1; [|apply nth_error_None in E1; unfold cell in *; lia].
  destruct (nth_error (v_cells old) j) as [(vo, so)|] eqn:E2; [|apply nth_error_None in E2; unfold cell in *; lia].
  destruct (UP j d mk ss vo so D E1 E2) as (vn & sn & E3 & H). unfold cell in *. rewrite E in E3. injection E3 as <- <-.
  destruct (f_code d =? tc_Struct); [destruct H as (H & _); rewrite <- H in E2; exact (CO _ _ _ _ E2)|]. destruct H as (H1 & H2).
  destruct (sent_dec m (v_cells (u_value u)) (Some (u_mask u)) j G LV) as [S|S].
  - destruct (H1 S) as (_ & Q). destruct ss; try discriminate Q.
    + destruct o as [(k0, w)|]; [|discriminate Q]. injection Q as -> ->. apply received_full. exact (PC _ _ _ _ E1).
    + exfalso. destruct a; discriminate Q.
  - destruct (H2 S) as (_ & Q). rewrite <- Q in E2. exact (CO _ _ _ _ E2).
Qed.

Definition delivered_alike (m : member) (us : list update) (p : value) (ds : list value) : Prop :=
  length ds = length us /\ forall i u v, nth_error us i = Some u -> nth_error ds i = Some v ->
    v_nodes v = flatten m /\
    forall j d b start, nth_error (flatten m) j = Some d -> f_code d <> tc_Struct -> nth_error (v_cells p) j = Some (b, start) ->
      exists mk s0 s, nth_error (v_cells v) j = Some (mk, s) /\ (mk = true <-> carries m u j) /\ latest_from m start us i j d s0 /\ alike_field s0 s.

Lemma deliver_variants m cmd junk others be ioid us (writer : update -> bool -> wbuf -> outcome wbuf) : good_type m ->
  Forall (update_of m) us -> Forall (fun u => plain_contents (u_value u)) us ->
  (forall u p, update_of m u -> v_nodes p = flatten m ->
     arrives be (writer u) (client_reads cmd junk (fun i => if i =? ioid then Some {| ri_proto := Some p; ri_fl := true |} else others i))
       (fun r => exists v', got r = Some v' /\ copy_of_marked m (u_value u) (Some (u_mask u)) v')) ->
  exists bodies, Forall2 (fun u e => forall host pre, writer u host (outbuf pre be) = OK (outbuf (pre ++ e) be)) us bodies /\
    forall fuel fp same host cache p, exact_widening fp -> types_shared same ->
      Forall (fun e => (length e < S (S fuel))%nat) bodies -> v_nodes p = flatten m -> kinds m (v_cells p) -> clonable (v_cells p) ->
      exists ds, deliver cmd junk others be (S (S fuel)) fp same host ioid p cache bodies = Some ds /\ delivered_alike m us p ds.
Proof.
  intros G F FP W. induction F as [|u us HU F IH].
  - exists []. split; [constructor|]. intros. exists []. split; [reflexivity|]. split; [reflexivity|]. intros [|i]; discriminate.
  - inversion FP as [|? ? PU FP']; subst. destruct (IH FP') as (bodies & FB & IH'). clear IH. rename IH' into IH.
    destruct (W u (fresh m) HU eq_refl) as (e & _ & _ & WE & _). exists (e :: bodies). split; [constructor; assumption|].
    intros fuel fp same host cache p FW TS FL PN KP CP. inversion FL as [|? ? LE FL']; subst.
    destruct (W u p HU PN) as (e' & x & (v' & GX & CC) & WE' & R). assert (e' = e) by (eapply writer_unique; eauto). subst e'. destruct (R host (S (S fuel)) cache LE) as (RD & _).
    destruct (copy_kinds m G u v' HU CC) as (VN & KV & CV). pose proof (copy_clonable m u v' G HU PU CC) as CLV.
    destruct (sync_variants m fuel fp same _ _ FW TS G KP KV CP CLV) as (c' & d' & SY & K1 & CL1 & AT).
    destruct (IH fuel fp same host cache (Val (flatten m) c') FW TS FL' eq_refl K1 CL1) as (ds & DD & LD & DL).
    exists (Val (flatten m) d' :: ds). split.
    + cbn [deliver]. unfold receive. rewrite RD, GX. unfold cell in *. rewrite SY, PN, VN, DD. reflexivity.
    + split; [cbn; congruence|].
      assert (UC : forall j d, nth_error (flatten m) j = Some d -> exists mk ss, nth_error (v_cells (u_value u)) j = Some (mk, ss)).
      { intros j d D. pose proof (value_length m _ (proj1 HU)) as L. assert (j < length (flatten m))%nat by (apply nth_error_Some; congruence).
        destruct (nth_error (v_cells (u_value u)) j) as [(mk, ss)|] eqn:E; [eauto|apply nth_error_None in E; unfold cell in *; lia]. }
      intros [|i] u0 v0 N1 N2; cbn [nth_error] in N1, N2.
      * injection N1 as <-. injection N2 as <-. split; [reflexivity|]. intros j d b start D NS P. cbn [v_cells].
        destruct (UC j d D) as (mk & ss & E).
        destruct (CV j d mk ss D NS E) as (b' & s & E' & CB & SB). destruct (AT j b start b' s P E') as (s1 & s2 & _ & Q & _ & A2).
        exists b', (if b' then s else start), s2. split; [exact Q|]. split; [exact CB|]. split; [|exact A2].
        destruct b'.
        -- left. exists 0%nat, u, mk, ss. repeat (split; [lia || reflexivity || assumption|]). split; [now apply CB|]. split; [exact E|]. split; [now apply SB|]. intros; lia.
        -- right. split; [|reflexivity]. intros k u1 K N1. assert (k = 0%nat) by lia. subst k. injection N1 as <-. intro C. apply CB in C. discriminate.
      * destruct (DL i u0 v0 N1 N2) as (VN0 & H). split; [exact VN0|]. intros j d b start D NS P.
        destruct (UC j d D) as (mk & ss & E).
        destruct (CV j d mk ss D NS E) as (b' & s & E' & CB & SB). destruct (AT j b start b' s P E') as (s1 & s2 & Q & _ & A1 & _).
        destruct (H j d b s1 D NS Q) as (mk1 & s0 & sx & X1 & X2 & X3 & X4).
        assert (exists s0', latest_from m (if b' then s else start) us i j d s0' /\ alike_field s0' sx) as (s0' & Y1 & Y2).
        { destruct X3 as [X3|(X3 & ->)]; [exists s0; split; [left; exact X3|exact X4]|].
          exists (if b' then s else start). split; [right; auto|]. eapply alike_field_trans; eauto. }
        exists mk1, s0', sx. split; [exact X1|]. split; [exact X2|]. split; [|exact Y2]. eapply step_later; eauto.
Qed.

(** ** C78, types with Union and Any fields

    As [delivers_latest], for every type.  Of a Union, or Any, the same member is selected and it holds the same in every field.
    Floating point numbers survive a conversion to double and back, and a type is equal to itself. *)
Definition delivers_alike (m : member) (cmd ioid : Z) (writer : update -> bool -> wbuf -> outcome wbuf) (be : bool) (us : list update) : Prop :=
  exists bodies, Forall2 (fun u e => forall host pre, writer u host (outbuf pre be) = OK (outbuf (pre ++ e) be)) us bodies /\
    forall junk others fuel fp same host cache p, exact_widening fp -> types_shared same ->
      Forall (fun e => (length e < S (S fuel))%nat) bodies -> new_value m p ->
      exists ds, deliver cmd junk others be (S (S fuel)) fp same host ioid p cache bodies = Some ds /\ length ds = length us /\
        forall i u v, nth_error us i = Some u -> nth_error ds i = Some v -> v_nodes v = flatten m /\
          forall j d, nth_error (flatten m) j = Some d -> f_code d <> tc_Struct ->
            exists mk s0 s, nth_error (v_cells v) j = Some (mk, s) /\ (mk = true <-> carries m u j) /\ latest m us i j d s0 /\ alike_field s0 s.
Lemma deliver_alike m cmd be ioid us writer : good_type m -> Forall (update_of m) us -> Forall (fun u => plain_contents (u_value u)) us ->
  (forall junk others u p, update_of m u -> v_nodes p = flatten m ->
     arrives be (writer u) (client_reads cmd junk (fun i => if i =? ioid then Some {| ri_proto := Some p; ri_fl := true |} else others i))
       (fun r => exists v', got r = Some v' /\ copy_of_marked m (u_value u) (Some (u_mask u)) v')) ->
  delivers_alike m cmd ioid writer be us.
Proof.
  intros G F FP W. pose proof (fun junk others => deliver_variants m cmd junk others be ioid us writer G F FP (W junk others)) as H.
  destruct (H (0, st_ok) (fun _ => None)) as (bodies & FB & _). exists bodies. split; [exact FB|].
  intros junk others fuel fp same host cache p FW TS FL NW. destruct (H junk others) as (bodies' & FB' & K).
  assert (bodies' = bodies). { clear - FB FB'. revert bodies FB. induction FB' as [|u e us bs A F IH]; intros b F2; inversion F2; subst; [reflexivity|]. f_equal; [eapply writer_unique; eauto|auto]. }
  subst bodies'. destruct (new_kinds m p G NW) as (PN & KP). destruct (K fuel fp same host cache p FW TS FL PN KP (new_clonable m p G NW)) as (ds & DD & L & DL).
  exists ds. split; [exact DD|]. split; [exact L|]. intros i u v N1 N2. destruct (DL i u v N1 N2) as (VN & AT). split; [exact VN|]. intros j d D NS.
  pose proof (proj2 NW) as F2. apply nodes_at in F2. destruct F2 as (LP & F2).
  destruct (nth_error (v_cells p) j) as [(b, s0)|] eqn:E.
  2:{ exfalso. apply nth_error_None in E. assert (j < length (flatten m))%nat by (apply nth_error_Some; congruence). unfold cell in *. lia. }
  destruct (F2 j d _ D E) as (_ & I0). cbn [snd] in I0.
  destruct (AT j d b s0 D NS E) as (mk & s1 & s & X1 & X2 & X3 & X4). exists mk, s1, s. split; [exact X1|]. split; [exact X2|]. split; [|exact X4].
  destruct X3 as [X3|(X3 & ->)]; [left; exact X3|right; auto].
Qed.
Theorem C78_monitor_unions_partial : forall be m ioid us, u32 ioid -> updatable m -> Forall (update_of m) us -> Forall (fun u => plain_contents (u_value u)) us ->
  delivers_alike m 13 ioid (fun u host => r_mon_update host ioid (u_value u) (u_mask u)) be us.
Proof.
  intros be m ioid us HI UP F FP. apply deliver_alike; [apply UP|exact F|exact FP|]. intros junk others u p (V & MF) PN.
  destruct (C77_mon_update be junk (fun i => if i =? ioid then Some {| ri_proto := Some p; ri_fl := true |} else others i) p ioid m (u_value u) (u_mask u) HI UP V MF PN) as (e & x & (v' & -> & C) & W & R).
  { now rewrite Z.eqb_refl. }
  exists e, (AMon ioid 0 st_ok (Some v') false). split; [exists v'; split; [reflexivity|exact C]|]. split; [exact W|exact R].
Qed.
Theorem C78_get_unions_partial : forall be m (put : bool) ioid us, u32 ioid -> updatable m -> Forall (update_of m) us -> Forall (fun u => plain_contents (u_value u)) us ->
  delivers_alike m (if put then 11 else 10) ioid (fun u host => r_gpr host ioid (if put then 64 else 0) [] (BValid (u_value u) (u_mask u))) be us.
Proof.
  intros be m put ioid us HI UP F FP. apply deliver_alike; [apply UP|exact F|exact FP|]. intros junk others u p (V & MF) PN.
  destruct (C77_get be put junk (fun i => if i =? ioid then Some {| ri_proto := Some p; ri_fl := true |} else others i) true p ioid m (u_value u) (u_mask u) HI UP V MF PN) as (e & x & (v' & -> & C) & W & R).
  { now rewrite Z.eqb_refl. }
  exists e, (AGpr (if put then KPut else KGet) ioid (if put then 64 else 0) st_ok (Some v')). split; [exists v'; split; [reflexivity|exact C]|]. split; [exact W|exact R].
Qed.

(** ** Examples: the hypotheses are met *)
Definition nd_type : member := Mem tc_Struct [] []
  [Mem tc_Union [118] [] [Mem (tc_arrayOf tc_UInt8) [97] [] []; Mem (tc_arrayOf tc_UInt8) [98] [] []]; Mem tc_Any [120] [] []; Mem tc_Int16 [110] [] []].
Definition nd_inner : member := Mem tc_Struct [] [] [Mem tc_String [115] [] []].
Definition nd_cells (u a : bool * sto value) (n : bool * Z) : list cell := [(false, SNull); u; a; (fst n, SInt (snd n))].
Definition nd_u (mk : bool) : sto value := SSel (Some (1%nat, Val [fd_new (tc_arrayOf tc_UInt8)] [(mk, SArr (APod (tc_arrayOf tc_UInt8) [1; 2]))])).
Definition nd_a (mk : bool) : sto value := SSel (Some (0%nat, Val (flatten nd_inner) [(false, SNull); (mk, SStr [104; 105])])).
Definition nd_mask : bmask := match bm_init [1; 2; 3] 4 with Some m => m | None => bm_empty end.
Definition nd_update (u a : bool * sto value) (n : bool * Z) : update := {| u_value := Val (flatten nd_type) (nd_cells u a n); u_mask := nd_mask |}.
(** First the second member of the Union is sent, then a structure in the Any and the number. *)
Definition nd_updates : list update := [nd_update (true, nd_u true) (false, SSel None) (false, 0); nd_update (false, SSel None) (true, nd_a false) (true, 3)].
Lemma nd_good : good_type nd_type.
Proof.
  split; [reflexivity|]. split.
  - cbn. repeat split; intros _; repeat constructor; cbn; try tauto; intros H; decompose [or] H; try easy; discriminate.
  - cbn. unfold no_dot. repeat split; intros [H|H]; try easy; discriminate.
Qed.
Lemma nd_inner_good : good_type nd_inner.
Proof.
  split; [reflexivity|]. split.
  - cbn. repeat split; intros _; repeat constructor; cbn; tauto.
  - cbn. unfold no_dot. repeat split; intros [H|H]; try easy; discriminate.
Qed.
Lemma nd_mask_fits : mask_fits (flatten nd_type) (Some nd_mask).
Proof. replace nd_mask with (BM [14] 4) by (vm_compute; reflexivity). split; [|reflexivity]. split; [constructor; [lia|constructor]|]. cbn [bm_size bm_words]. unfold zlen. cbn [length]. lia. Qed.
Lemma nd_value u a n : node_ok (nth 1 (flatten nd_type) (fd_new 0)) (snd u) -> node_ok (nth 2 (flatten nd_type) (fd_new 0)) (snd a) -> signed_in 2 (snd n) ->
  value_of nd_type (Val (flatten nd_type) (nd_cells u a n)).
Proof.
  intros A B C. split; [exact nd_good|]. split; [reflexivity|]. constructor.
  apply nodes_at. split; [reflexivity|]. intros [|[|[|[|j]]]] d c D E; [..|destruct j; discriminate]; cbn in E; injection E as <-; cbn [snd].
  - assert (d = first_node (flatten nd_type)) as -> by (vm_compute in D |- *; congruence). now apply ok_struct.
  - assert (d = nth 1 (flatten nd_type) (fd_new 0)) as -> by (vm_compute in D |- *; congruence). exact A.
  - assert (d = nth 2 (flatten nd_type) (fd_new 0)) as -> by (vm_compute in D |- *; congruence). exact B.
  - assert (d = nth 3 (flatten nd_type) (fd_new 0)) as -> by (vm_compute in D |- *; congruence). eapply ok_int; [reflexivity|exact C].
Qed.
Lemma nd_u_ok mk : node_ok (nth 1 (flatten nd_type) (fd_new 0)) (nd_u mk).
Proof.
  apply ok_union with (name := [98]); [reflexivity|right; left; reflexivity|reflexivity|]. constructor. constructor; [|constructor]. cbn [snd].
  match goal with |- node_ok ?d _ => apply (ok_pod d 1%nat [1; 2]) end; [reflexivity| |unfold fits32; cbn; lia]. repeat constructor; cbn; unfold unsigned_in; cbn; lia.
Qed.
Lemma nd_a_ok mk : node_ok (nth 2 (flatten nd_type) (fd_new 0)) (nd_a mk).
Proof.
  apply ok_any with (m := nd_inner); [reflexivity|exact nd_inner_good|cbn; lia|reflexivity|]. constructor. constructor; [now apply ok_struct|]. constructor; [|constructor].
  apply ok_str; [reflexivity|unfold fits32; cbn; lia].
Qed.
Example C78_unions_satisfiable : updatable nd_type /\ Forall (update_of nd_type) nd_updates /\ Forall (fun u => plain_contents (u_value u)) nd_updates /\
  exact_widening no_fpu /\ types_shared (fun _ _ => true).
Proof.
  split; [split; [exact nd_good|split; reflexivity]|]. split; [|split; [|split; [intros x _; reflexivity|intro; reflexivity]]].
  - constructor; [|constructor; [|constructor]]; (split; [|exact nd_mask_fits]); apply nd_value; try apply nd_u_ok; try apply nd_a_ok; try (cbn; unfold signed_in; cbn; lia);
      apply ok_unselected; [right|left]; reflexivity.
  - constructor; [|constructor; [|constructor]]; intros [|[|[|[|j]]]] mk k w E; try discriminate E; try (destruct j; discriminate E); cbn in E; injection E as _ <- <-.
    + exists (Mem (tc_arrayOf tc_UInt8) [] [] []). split.
      * split; [split; [reflexivity|split; [cbn; repeat split; intros _; repeat constructor; cbn; tauto|cbn; unfold no_dot; repeat split; try tauto; intros H; decompose [or] H; discriminate]]|]. split; [reflexivity|]. pose proof (nd_u_ok true) as K. inversion K; subst; assumption.
      * constructor; [|constructor]. intro H. cbn in H. repeat (destruct H as [H|H]; [discriminate H|]). exact H.
    + exists nd_inner. split.
      * split; [exact nd_inner_good|]. split; [reflexivity|]. pose proof (nd_a_ok false) as K. inversion K; subst; assumption.
      * constructor; [|constructor; [|constructor]]; intro H; cbn in H; repeat (destruct H as [H|H]; [discriminate H|]); exact H.
Qed.
(** The second Value delivered still has the second member of the Union selected. *)
Example C78_unions_example : forall others,
  deliver 13 (0, st_ok) others true 40 no_fpu (fun _ _ => true) true 5 (fresh nd_type) []
    [[0; 0; 0; 5; 0; 1; 2; 1; 2; 1; 2; 0]; [0; 0; 0; 5; 0; 1; 12; 128; 0; 1; 1; 115; 96; 2; 104; 105; 0; 3; 0]] =
  Some [Val (flatten nd_type) (nd_cells (true, nd_u false) (false, SSel None) (false, 0));
        Val (flatten nd_type) (nd_cells (false, nd_u true) (true, nd_a true) (true, 3))].
Proof. intros. reflexivity. Qed.

(** A server may well send an array of structures in an Any (likewise in a Union).  The client which gets this update delivers
    nothing: the exception thrown by clone() ends the connection. *)
Definition nd_sa : member := Mem tc_StructA [] [] [Mem tc_Int32 [120] [] []].
Theorem C78_struct_array_refuted : exists m u body, updatable m /\ update_of m u /\
  (forall host pre, r_mon_update host 5 (u_value u) (u_mask u) (outbuf pre true) = OK (outbuf (pre ++ body) true)) /\
  forall p others fp same, new_value m p -> deliver 13 (0, st_ok) others true 40 fp same true 5 p [] [body] = None.
Proof.
  assert (UP : updatable nd_type) by (split; [exact nd_good|split; reflexivity]).
  pose (u := nd_update (false, SSel None) (true, SSel (Some (0%nat, Val (flatten nd_sa) [(true, SArr ANull)]))) (true, 3)).
  assert (UO : update_of nd_type u).
  { split; [|exact nd_mask_fits]. apply nd_value; [apply ok_unselected; left; reflexivity| |cbn; unfold signed_in; cbn; lia].
    apply ok_any with (m := nd_sa); [reflexivity| |cbn; lia|reflexivity|].
    - split; [reflexivity|]. split.
      + cbn. repeat split; intros _; repeat constructor; cbn; tauto.
      + cbn. unfold no_dot. repeat split; intros [H|H]; try easy; discriminate.
    - constructor. constructor; [|constructor]. now apply ok_untyped. }
  exists nd_type, u, [0; 0; 0; 5; 0; 1; 12; 136; 128; 0; 1; 1; 120; 34; 0; 0; 3; 0].
  split; [exact UP|]. split; [exact UO|]. split.
  - destruct (C77_mon_update true (0, st_ok) (fun i => if i =? 5 then Some {| ri_proto := Some (fresh nd_type); ri_fl := true |} else None) (fresh nd_type) 5 nd_type (u_value u) (u_mask u)) as (e & x & _ & W & _).
    + unfold u32. lia.
    + exact UP.
    + exact (proj1 UO).
    + exact (proj2 UO).
    + reflexivity.
    + reflexivity.
    + intros host pre. rewrite W. f_equal. f_equal. f_equal. specialize (W true []). cbn [app] in W.
      assert (Q : r_mon_update true 5 (u_value u) (u_mask u) (outbuf [] true) = OK (outbuf [0; 0; 0; 5; 0; 1; 12; 136; 128; 0; 1; 1; 120; 34; 0; 0; 3; 0] true)) by (vm_compute; reflexivity).
      rewrite Q in W. unfold outbuf in W. now injection W as <-.
  - intros p others fp same NW. rewrite (new_value_unique nd_type p NW nd_good). reflexivity.
Qed.

Print Assumptions C78_monitor_unions_partial.
Print Assumptions C78_get_unions_partial.
Print Assumptions C78_struct_array_refuted.
