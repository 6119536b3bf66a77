(** Proofs on successive updates with Union and Any fields. *)
From Coq Require Import ZArith List Bool Lia ZifyBool ZifyNat.
From Verif Require Import Base BaseProofs WireModel WireSpec WireProofs SegModel SegSpec SegProofs
  BitMaskModel BitMaskSpec BitMaskProofs TypeModel TypeSpec TypeProofs TypeNameProofs LayoutProofs
  ValueModel ValueSpec ValueTypeProofs ValueSafeProofs ValueTopProofs ValueEncProofs ValueRoundProofs ValueUpdateProofs ValueProps
  MarkModel MarkSpec MarkProofs FieldProofs CopyModel CopySpec CopyProofs CopyProps MsgModel MsgSpec MsgProofs MsgProps StreamModel StreamSpec.
Import ListNotations.
Local Open Scope Z_scope.

Lemma untyped_assigned s : untyped_empty s = as_assigned s.
Proof. reflexivity. Qed.
Lemma untyped_idem s : untyped_empty (untyped_empty s) = untyped_empty s.
Proof. destruct s; try reflexivity. destruct a as [|t [|]|[|]|[|]]; reflexivity. Qed.
Lemma alike_refl v : alike v v. Proof. split; reflexivity. Qed.
Lemma alike_trans a b c : alike a b -> alike b c -> alike a c.
Proof. intros (A & B) (C & D). split; congruence. Qed.
Lemma alike_field_refl s : alike_field s s.
Proof. destruct s; try reflexivity. destruct o as [(k, v)|]; [|reflexivity]. exists v. split; [reflexivity|apply alike_refl]. Qed.
Lemma alike_field_trans a b c : alike_field a b -> alike_field b c -> alike_field a c.
Proof.
  destruct a; cbn [alike_field]; try (intros ->; tauto). destruct o as [(k, v)|]; [|intros ->; tauto].
  intros (w & -> & A) (x & -> & B). exists x. split; [reflexivity|]. eapply alike_trans; eauto.
Qed.

(** a plain value in which, if it is a structure, all other fields are marked *)
Definition full (v : value) : Prop := exists m, value_of m v /\ Forall (fun d => plain_code (f_code d)) (flatten m) /\
  (m_code m = tc_Struct -> forall j d b s, nth_error (flatten m) j = Some d -> f_code d <> tc_Struct -> nth_error (v_cells v) j = Some (b, s) -> b = true).

Lemma nodes_at (P : fdesc -> cell -> Prop) l cells : Forall2 P l cells <-> length cells = length l /\ (forall j d c, nth_error l j = Some d -> nth_error cells j = Some c -> P d c).
Proof.
  split.
  - induction 1 as [|d c l cells H F (L & IH)]; [split; [reflexivity|intros [|j]; discriminate]|]. split; [cbn; congruence|].
    intros [|j] d0 c0 A B; cbn in *; [congruence|eauto].
  - revert cells. induction l as [|d l IH]; intros [|c cells] (L & H); try discriminate; constructor; [apply (H 0%nat); reflexivity|].
    apply IH. split; [now injection L|]. intros j. apply (H (S j)).
Qed.
Lemma arr_code_plain c : tc_isarray c = true -> plain_code c -> c <> tc_Union /\ c <> tc_Any.
Proof. intros _ P. unfold plain_code in P. cbn [In] in P. split; intros ->; apply P; tauto. Qed.


Definition plain_leaf (c : Z) : Prop := In c [tc_Bool; tc_Int8; tc_Int16; tc_Int32; tc_Int64; tc_UInt8; tc_UInt16; tc_UInt32; tc_UInt64; tc_Float32; tc_Float64; tc_String] \/
  In c (tc_StringA :: map tc_arrayOf [tc_Bool; tc_Int8; tc_Int16; tc_Int32; tc_Int64; tc_UInt8; tc_UInt16; tc_UInt32; tc_UInt64; tc_Float32; tc_Float64]).
Lemma plain_cases m d : good_type m -> In d (flatten m) -> plain_code (f_code d) -> f_code d = tc_Struct \/ plain_leaf (f_code d).
Proof.
  intros G I P. destruct (flatten_nodes (fun m => describable m = true) describable_hereditary m (good_describable m G) d I) as (m' & D' & N).
  rewrite (node_code _ _ N) in *. destruct m' as [code name id cs]. cbn [m_code] in *. unfold plain_code in P. cbn [In] in P.
  destruct (describable_inv _ _ _ _ D') as [(M & _)|(_ & LF & _)].
  - unfold has_members, is_array_of_compound in M. left. lia.
  - right. unfold plain_leaf. destruct (leaf_code_cases code LF) as [L|(_ & L)]; unfold leaf_codes in L; cbn [map In] in L |- *.
    + left. decompose [or] L; subst; try tauto; exfalso; apply P; tauto.
    + right. assert (tc_StringA = tc_arrayOf tc_String) by reflexivity. assert (tc_AnyA = tc_arrayOf tc_Any) by reflexivity.
      decompose [or] L; subst; try tauto; exfalso; apply P; tauto.
Qed.
Lemma plain_leaf_facts c : plain_leaf c -> tc_compound c = false /\ c <> tc_Struct /\ c <> tc_Union /\
  (tc_isarray c = true -> pod_width c <> None \/ c = tc_StringA).
Proof.
  intros [H|H]; cbn [map In] in H; decompose [or] H; subst; try contradiction;
    (split; [reflexivity|]); (split; [discriminate|]); (split; [discriminate|]); intro X; try discriminate X; try (right; reflexivity); left; discriminate.
Qed.
Lemma recv_plain d s : node_ok d s -> f_code d = tc_Struct \/ plain_leaf (f_code d) -> plain_code (f_code d) ->
  node_ok d (recv_sto received d s) /\ untyped_empty (recv_sto received d s) = untyped_empty s.
Proof.
  intros OK P PC. unfold plain_code in PC. cbn [In] in PC. inversion OK; subst; try (split; [exact OK|reflexivity]); try (exfalso; apply PC; intuition congruence).
  cbn [recv_sto]. unfold empty_arr. destruct P as [P|P]; [rewrite P in H; discriminate|].
  destruct (plain_leaf_facts _ P) as (_ & _ & _ & A). specialize (A H). destruct (pod_width (f_code d)) as [n|] eqn:W.
  - split; [|reflexivity]. apply ok_pod with (n := n); [exact W|constructor|unfold fits32; cbn; lia].
  - destruct A as [A|A]; [easy|]. rewrite A, Z.eqb_refl. split; [|reflexivity]. apply ok_strs; [exact A|constructor|unfold fits32; cbn; lia].
Qed.
Lemma node_ok_assigned d s : node_ok d s -> node_ok d (as_assigned s).
Proof.
  intro OK. inversion OK; subst; try exact OK; destruct l; try exact OK; cbn [as_assigned]; apply ok_untyped.
  - now apply pod_isarray in H.
  - now rewrite H.
  - destruct H as [H|H]; rewrite H; reflexivity.
  - now rewrite H.
Qed.

(** what arrives in a Union or Any is such a value *)
Lemma received_at nodes cells j : length cells = length nodes ->
  nth_error (v_cells (received (Val nodes cells))) j =
  match nth_error nodes j, nth_error cells j with
  | Some d, Some (_, s) => Some ((f_code (first_node nodes) =? tc_Struct) && negb (f_code d =? tc_Struct), recv_sto received d s)
  | _, _ => None
  end.
Proof.
  rewrite received_cells. cbn [v_cells]. generalize (f_code (first_node nodes) =? tc_Struct). intro b. revert nodes j.
  induction cells as [|(mk, s) cells IH]; intros [|d nodes] [|j] L; try discriminate; cbn [nth_error]; try reflexivity.
  apply IH. now injection L.
Qed.
Lemma value_length m v : value_of m v -> length (v_cells v) = length (flatten m).
Proof. intros (_ & E & OK). destruct v as (n, c). cbn [v_nodes v_cells] in *. subst n. exact (cells_ok_length _ _ OK). Qed.
Lemma received_full v : plain_value v -> full (received v) /\ alike v (received v).
Proof.
  intros (m & V & P). pose proof (value_length m v V) as L. destruct V as (G & N & OK). destruct v as (n, c). cbn [v_nodes v_cells] in *. subst n.
  assert (FACT : forall j d mk s, nth_error (flatten m) j = Some d -> nth_error c j = Some (mk, s) -> node_ok d (recv_sto received d s) /\ untyped_empty (recv_sto received d s) = untyped_empty s).
  { intros j d mk s D E. apply recv_plain; [exact (cells_ok_node _ _ _ _ _ _ OK D E)| |].
    - apply (plain_cases m); [exact G|eapply nth_error_In; eauto|]. rewrite Forall_forall in P. apply P. eapply nth_error_In; eauto.
    - rewrite Forall_forall in P. apply P. eapply nth_error_In; eauto. }
  assert (LR : length (v_cells (received (Val (flatten m) c))) = length (flatten m)).
  { apply Nat.le_antisymm; apply Nat.nlt_ge; intro H.
    - apply nth_error_Some in H. rewrite (received_at (flatten m) c) in H by exact L. now rewrite (proj2 (nth_error_None (flatten m) (length (flatten m)))) in H.
    - pose proof (received_at (flatten m) c (length (v_cells (received (Val (flatten m) c)))) L) as R.
      rewrite (proj2 (nth_error_None _ _)) in R by lia. destruct (nth_error (flatten m) _) eqn:A; [|apply nth_error_None in A; lia].
      destruct (nth_error c _) as [(?, ?)|] eqn:B; [discriminate|]. apply nth_error_None in B. unfold cell in *. lia. }
  split.
  - exists m. split; [|split; [exact P|]].
    + split; [exact G|]. split; [rewrite received_cells; reflexivity|].
      destruct (received (Val (flatten m) c)) as (n', c') eqn:E. assert (n' = flatten m) by (rewrite received_cells in E; now injection E). subst n'.
      constructor. apply nodes_at. cbn [v_cells] in LR. split; [exact LR|]. intros j d (b, s) D EC.
      pose proof (received_at (flatten m) c j L) as R. rewrite E in R. cbn [v_cells] in R. unfold cell in *. rewrite EC, D in R. destruct (nth_error c j) as [(mk, s0)|] eqn:E0; [|discriminate].
      injection R as -> ->. cbn [snd]. now apply (FACT j d mk s0).
    + intros MS j d b s D NS E. rewrite received_at in E by exact L. rewrite D in E. destruct (nth_error c j) as [(mk, s0)|]; [|discriminate]. injection E as <- _.
      rewrite andb_true_iff, negb_true_iff. split; [|lia]. apply Z.eqb_eq. rewrite <- MS. now apply first_good.
  - split; [rewrite received_cells; reflexivity|]. apply nth_error_ext_eq. intro j. rewrite !nth_error_map, received_at by exact L. cbn [v_cells].
    destruct (nth_error (flatten m) j) as [d|] eqn:D.
    + destruct (nth_error c j) as [(mk, s)|] eqn:E; [|reflexivity]. cbn [option_map snd]. f_equal. now apply (FACT j d mk s).
    + apply nth_error_None in D. unfold cell in *. rewrite (proj2 (nth_error_None c j)) by lia. reflexivity.
Qed.

(** cloning such a value *)
Lemma clone_full fuel fp same v : exact_widening fp -> types_shared same -> full v -> exists w, clone (S (S fuel)) fp same v = (ROk, Some w) /\ full w /\ alike v w.
Proof.
  intros FW TS (m & V & P & MK). pose proof (value_length m v V) as L. pose proof V as (G & N & OK). destruct v as (n, c). cbn [v_nodes v_cells] in *. subst n.
  rewrite Forall_forall in P.
  destruct (Z.eq_dec (m_code m) tc_Struct) as [MS|MS].
  - specialize (MK MS).
    destruct (C21_clone_partial fuel fp same m c FW TS V MS) as (new & c' & VN & F2 & CL & (LC & OUT & ROOT & AT)).
    { unfold no_union. apply Forall_forall. intros d I U. apply (P d I). rewrite U. cbn. tauto. }
    exists (Val (flatten m) c'). split; [exact CL|].
    apply nodes_at in F2. destruct F2 as (LN & F2).
    assert (CELL : forall j d b s, nth_error (flatten m) j = Some d -> nth_error c j = Some (b, s) ->
      exists b', nth_error c' j = Some (b', as_assigned s) /\ (f_code d <> tc_Struct -> b' = true)).
    { intros j d b s D E. assert (J0 : (j < length (flatten m))%nat) by (apply nth_error_Some; congruence). assert (J : (j < length new)%nat) by (unfold cell in *; lia).
      destruct (nth_error new j) as [(vo, so)|] eqn:EN; [|apply nth_error_None in EN; lia].
      destruct (F2 j d (vo, so) D EN) as (Q1 & Q2). cbn [fst snd] in Q1, Q2. subst vo.
      pose proof (cells_ok_node _ _ _ _ _ _ OK D E) as NO.
      assert (SN : f_code d = tc_Struct -> s = SNull /\ so = SNull).
      { intro SC. split; [exact (node_ok_struct _ _ NO SC)|]. unfold initial in Q2. rewrite SC in Q2. vm_compute in Q2. congruence. }
      destruct j as [|j].
      - destruct (ROOT false so EN) as (b' & E' & _). exists b'. assert (SC : f_code d = tc_Struct).
        { rewrite <- MS. rewrite <- (proj2 (first_good m G)). unfold first_node. destruct (flatten m); [discriminate|]. injection D as ->. reflexivity. }
        destruct (SN SC) as (-> & ->). split; [exact E'|]. intro; contradiction.
      - destruct (AT (S j) d b s false so) as (vn & snew & E' & H); [rewrite nfields_flatten; unfold cell in *; lia|exact D|exact E|exact EN|].
        cbn [Nat.add] in E'. exists vn. destruct (f_code d =? tc_Struct) eqn:SC.
        + destruct H as (-> & _). destruct (SN ltac:(lia)) as (-> & ->). split; [exact E'|lia].
        + destruct H as (H & _). assert (CA : carried (flatten m) c 0 (0 + S j)).
          { split; [apply root_inside_iff; [exact G|]; rewrite nfields_flatten; unfold cell in *; lia|]. left. unfold marked. exists s. cbn [Nat.add].
            unfold cell in *. rewrite E. f_equal. f_equal. apply (MK (S j) d b s); [exact D|lia|exact E]. }
          destruct (H CA) as (-> & ->). split; [exact E'|reflexivity]. }
    assert (LL : length c' = length (flatten m)) by (unfold cell in *; congruence).
    split.
    + exists m. split; [|split; [now apply Forall_forall|]].
      * split; [exact G|]. split; [reflexivity|]. constructor. apply nodes_at. split; [exact LL|]. intros j d (b', s') D E'.
        destruct (nth_error c j) as [(b, s)|] eqn:E; [|apply nth_error_None in E; assert (j < length (flatten m))%nat by (apply nth_error_Some; congruence); unfold cell in *; lia].
        destruct (CELL j d b s D E) as (b2 & E2 & _). unfold cell in *. rewrite E' in E2. injection E2 as -> ->. cbn [snd]. apply node_ok_assigned. exact (cells_ok_node _ _ _ _ _ _ OK D E).
      * intros _ j d b' s' D NS E'. cbn [v_cells] in E'.
        destruct (nth_error c j) as [(b, s)|] eqn:E; [|apply nth_error_None in E; assert (j < length (flatten m))%nat by (apply nth_error_Some; congruence); unfold cell in *; lia].
        destruct (CELL j d b s D E) as (b2 & E2 & H). unfold cell in *. rewrite E' in E2. injection E2 as -> ->. now apply H.
    + split; [reflexivity|]. cbn [v_cells]. apply nth_error_ext_eq. intro j. rewrite !nth_error_map.
      destruct (nth_error (flatten m) j) as [d|] eqn:D.
      * destruct (nth_error c j) as [(b, s)|] eqn:E; [|apply nth_error_None in E; assert (j < length (flatten m))%nat by (apply nth_error_Some; congruence); unfold cell in *; lia].
        destruct (CELL j d b s D E) as (b2 & E2 & _). unfold cell in *. rewrite E2. cbn [option_map snd]. exact (f_equal Some (untyped_idem s)).
      * apply nth_error_None in D. unfold cell in *. rewrite (proj2 (nth_error_None c j)), (proj2 (nth_error_None c' j)) by lia. reflexivity.
  - destruct (first_good m G) as (_ & FC).
    assert (exists d r, flatten m = d :: r) as (d & r & EF) by (pose proof (flatten_length m); destruct (flatten m); [cbn in *; lia|eauto]).
    assert (FD : f_code d = m_code m) by (rewrite <- FC; unfold first_node; rewrite EF; reflexivity).
    assert (PL : plain_leaf (f_code d)).
    { destruct (plain_cases m d G) as [X|X]; [rewrite EF; now left|apply P; rewrite EF; now left|congruence|exact X]. }
    assert (r = []) as ->.
    { destruct (plain_leaf_facts _ PL) as (TC & _). destruct m as [code nm id cs]. cbn [m_code] in FD. destruct (describable_inv _ _ _ _ (good_describable _ G)) as [(M & _)|(_ & _ & _ & ->)].
      - exfalso. rewrite <- FD in M. unfold has_members, is_array_of_compound in M. clear - TC M.
        repeat (apply orb_true_iff in M as [M|M] || (apply Z.eqb_eq in M; rewrite M in TC; discriminate)).
      - pose proof (nfields_flatten (Mem code nm id [])) as NF. rewrite EF in NF. cbn [nfields fold_right map list_sum length] in NF. destruct r; [reflexivity|]. exfalso. revert NF. cbn [length]. unfold nfields. repeat match goal with |- context [if ?b then _ else _] => destruct b end; cbn; lia. }
    destruct c as [|(b, s) [|]]; try (rewrite EF in L; discriminate L).
    assert (NO : node_ok d s) by (apply (cells_ok_node _ _ 0 d b s OK); [now rewrite EF|reflexivity]).
    assert (I0 : sto_init (f_code d) = Some (init_sto d)).
    { pose proof (nodes_init m (good_describable m G)) as NI. rewrite EF in NI. now inversion NI. }
    destruct (plain_leaf_facts _ PL) as (TC & NS & NU & _).
    destruct (copy_node_same fp same (copy_in (S fuel) fp same) d (init_sto d) s (init_sto d) FW TS NS NU NO I0) as (t & CN).
    { destruct (init_sto d); exact Logic.I. }
    exists (Val (flatten m) [(true, as_assigned s)]). split.
    { unfold clone. cbn [v_nodes]. rewrite (fresh_new m G). unfold fresh. rewrite EF. cbn [map]. unfold assign. cbn [nth_error v_nodes v_cells]. rewrite TC.
      rewrite (copy_in_leaf (S fuel) fp same [d] _ 0 _ d false (init_sto d)) by (reflexivity || exact NS). rewrite CN. unfold put. cbn [nth_error]. reflexivity. }
    split.
    + exists m. split; [|split; [now apply Forall_forall|intro; contradiction]]. split; [exact G|]. split; [reflexivity|]. constructor. rewrite EF.
      constructor; [|constructor]. cbn [snd]. now apply node_ok_assigned.
    + split; [reflexivity|]. cbn [v_cells map snd]. exact (f_equal (fun x => [x]) (untyped_idem s)).
Qed.
