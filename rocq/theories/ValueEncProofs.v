(** Encoding values: every value a program can hold is encoded, to a fixed byte
    string. *)
From Coq Require Import ZArith List Bool Lia ZifyBool ZifyNat.
From Verif Require Import Base BaseProofs WireModel WireSpec WireProofs SegModel SegSpec SegProofs
  BitMaskModel BitMaskSpec BitMaskProofs TypeModel TypeSpec TypeProofs TypeNameProofs
  ValueModel ValueSpec LayoutProofs ValueTypeProofs ValueSafeProofs ValueTopProofs.
Import ListNotations.
Local Open Scope Z_scope.

(** ** induction over values *)
Definition opt_size (rec : value -> nat) (o : option value) : nat := match o with Some v => rec v | None => 0%nat end.
Definition sum_sizes {A} (f : A -> nat) (l : list A) : nat := fold_right (fun x acc => (f x + acc)%nat) 0%nat l.
Definition sto_size (rec : value -> nat) (s : sto value) : nat :=
  match s with
  | SSel (Some (_, v)) => rec v
  | SArr (AVals l) => sum_sizes (opt_size rec) l
  | _ => 0%nat
  end.
Fixpoint vsize (v : value) : nat :=
  match v with Val _ cells => S (sum_sizes (fun c => sto_size vsize (snd c)) cells) end.

Inductive part : sto value -> value -> Prop :=
| part_sel : forall i v, part (SSel (Some (i, v))) v
| part_elem : forall l v, In (Some v) l -> part (SArr (AVals l)) v.
Lemma sum_sizes_In {A} (f : A -> nat) l x : In x l -> (f x <= sum_sizes f l)%nat.
Proof. induction l as [|y l IH]; [easy|]. intros [->|I]; cbn [sum_sizes fold_right]; [lia|]. specialize (IH I). unfold sum_sizes in IH. lia. Qed.
Lemma part_size s v : part s v -> (vsize v <= sto_size vsize s)%nat.
Proof. destruct 1 as [i v|l v I]; cbn [sto_size]; [lia|]. exact (sum_sizes_In (opt_size vsize) l (Some v) I). Qed.
Lemma cell_part_size nodes cells c v : In c cells -> part (snd c) v -> (vsize v < vsize (Val nodes cells))%nat.
Proof.
  intros I P. cbn [vsize]. apply part_size in P. pose proof (sum_sizes_In (fun c => sto_size vsize (snd c)) cells c I). cbv beta in H. lia.
Qed.
Lemma value_strong_ind (P : value -> Prop) : (forall v, (forall v', (vsize v' < vsize v)%nat -> P v') -> P v) -> forall v, P v.
Proof.
  intros H v. assert (G : forall n v, (vsize v < n)%nat -> P v).
  { induction n as [|n IH]; intros w L; [lia|]. apply H. intros w' L'. apply IH. lia. }
  apply (G (S (vsize v))). lia.
Qed.
Lemma value_part_ind (P : value -> Prop) :
  (forall nodes cells, (forall c v', In c cells -> part (snd c) v' -> P v') -> P (Val nodes cells)) -> forall v, P v.
Proof.
  intro H. apply value_strong_ind. intros [nodes cells] IH. apply H. intros c v' I Q. apply IH. eapply cell_part_size; eauto.
Qed.

(** ** weights *)
Lemma nodes_weight_app a b : nodes_weight (a ++ b) = (nodes_weight a + nodes_weight b)%nat.
Proof. unfold nodes_weight. induction a as [|x a IH]; cbn [app fold_right]; [reflexivity|]. rewrite IH. lia. Qed.
Lemma fd_weight_eq d : fd_weight d = (2 + nodes_weight (f_members d))%nat.
Proof. destruct d; reflexivity. Qed.
Lemma set_parent_weight p l : nodes_weight (set_parent p l) = nodes_weight l.
Proof. destruct l as [|d r]; [reflexivity|]. cbn [set_parent nodes_weight fold_right]. rewrite !fd_weight_eq. reflexivity. Qed.
Lemma kids_weight st cs : Forall (fun c => (levels c <= nodes_weight (flatten c))%nat) cs -> forall off,
  (fold_right (fun c acc => Nat.max (levels c) acc) 0 cs <= nodes_weight (kids_from st off cs))%nat.
Proof.
  induction 1 as [|c cs H _ IH]; intro off; cbn [fold_right kids_from]; [lia|]. rewrite nodes_weight_app.
  specialize (IH (off + length (flatten c))%nat).
  replace (nodes_weight (if st then set_parent off (flatten c) else flatten c)) with (nodes_weight (flatten c)); [lia|].
  destruct st; [now rewrite set_parent_weight|reflexivity].
Qed.
Lemma levels_weight m : (levels m <= nodes_weight (flatten m))%nat.
Proof.
  induction m as [code name id cs IH] using member_ind'.
  assert (PL : forall c, (1 + fold_right (fun c acc => Nat.max (levels c) acc) 0 cs <= nodes_weight (flatten_plain c id cs))%nat).
  { intro c. rewrite flatten_plain_eq. cbv zeta. 
    pose proof (kids_weight true cs IH 1) as K1. pose proof (kids_weight false cs IH 0) as K0.
    destruct (c =? tc_Struct); cbn [nodes_weight fold_right]; rewrite fd_weight_eq; cbn [f_members];
      unfold nodes_weight in *; cbn [fold_right]; lia. }
  rewrite flatten_eq. cbn [levels]. destruct (is_array_of_compound code).
  - cbn [nodes_weight fold_right]. rewrite fd_weight_eq. cbn [f_members]. specialize (PL (tc_scalarOf code)). lia.
  - apply PL.
Qed.

(** ** the encoding as a byte string *)
Definition enc_desc (be : bool) (nodes : list fdesc) : list Z :=
  match to_wire_desc (nodes_weight nodes) be nodes (outbuf [] be) with Some w => wd w | None => [] end.
Lemma to_wire_nodes_out host be m pre : describable m = true ->
  to_wire_nodes host (flatten m) (outbuf pre be) = OK (outbuf (pre ++ enc_type be m) be).
Proof.
  intro D. unfold to_wire_nodes.
  pose proof (encodes_all host be m D (nodes_weight (flatten m)) 0%nat [] pre (levels_weight m)) as E.
  rewrite set_parent_flatten, app_nil_r in E. now rewrite E.
Qed.
Lemma enc_desc_type be m : describable m = true -> enc_desc be (flatten m) = enc_type be m.
Proof.
  intro D. unfold enc_desc.
  pose proof (encodes_all be be m D (nodes_weight (flatten m)) 0%nat [] [] (levels_weight m)) as E.
  rewrite set_parent_flatten, app_nil_r in E. now rewrite E.
Qed.

Definition enc_opt (be : bool) (elem : value -> list Z) (o : option value) : list Z :=
  match o with None => enc_u be 1 0 | Some v => enc_u be 1 1 ++ elem v end.
Definition enc_sto (rec : value -> list Z) (be : bool) (d : fdesc) (s : sto value) : list Z :=
  let c := f_code d in
  match s with
  | SNull => []
  | SReal x => if c =? tc_Float32 then enc_u be 4 x else enc_u be 8 x
  | SInt x => match int_width c with Some n => enc_u be n x | None => [] end
  | SUInt x => match uint_width c with Some n => enc_u be n x | None => [] end
  | SBool x => enc_u be 1 (if x then 1 else 0)
  | SStr x => enc_str be x
  | SSel None => if c =? tc_Union then enc_sel be (-1) else enc_u be 1 0xff
  | SSel (Some (i, v)) =>
      (if c =? tc_Union then enc_sel be (Z.of_nat (miter_pos i (f_iter d))) else enc_desc be (v_nodes v)) ++ rec v
  | SArr ANull => enc_size be 0
  | SArr (APod _ l) => enc_size be (zlen l) ++ match pod_width c with Some n => enc_elems be n l | None => [] end
  | SArr (AStr l) => enc_size be (zlen l) ++ enc_strs be l
  | SArr (AVals l) =>
      enc_size be (zlen l)
      ++ concat (map (enc_opt be (fun v => (if c =? tc_AnyA then enc_desc be (v_nodes v) else []) ++ rec v)) l)
  end.
Fixpoint encv (be : bool) (v : value) {struct v} : list Z :=
  match v with
  | Val nodes cells =>
      (fix go (cells : list (bool * sto value)) (nodes : list fdesc) : list Z :=
         match cells, nodes with
         | (_, s) :: cells', d :: nodes' =>
             (if f_code d =? tc_Struct then [] else enc_sto (encv be) be d s) ++ go cells' nodes'
         | _, _ => []
         end) cells nodes
  end.
Fixpoint enc_cells (be : bool) (cells : list (bool * sto value)) (nodes : list fdesc) : list Z :=
  match cells, nodes with
  | (_, s) :: cells', d :: nodes' =>
      (if f_code d =? tc_Struct then [] else enc_sto (encv be) be d s) ++ enc_cells be cells' nodes'
  | _, _ => []
  end.
Lemma encv_eq be nodes cells : encv be (Val nodes cells) = enc_cells be cells nodes.
Proof.
  cbn [encv]. revert nodes. induction cells as [|[vl s] cells IH]; intros [|d nodes]; try reflexivity.
  cbn [enc_cells]. now rewrite IH.
Qed.

Definition sends (host be : bool) (v : value) : Prop :=
  forall pre, to_wire_full host v (outbuf pre be) = OK (outbuf (pre ++ encv be v) be).

Lemma miter_pos_lt i l name : In (name, i) l -> (miter_pos i l < length l)%nat.
Proof.
  induction l as [|[n k] l IH]; [easy|]. intros [E|I]; cbn [miter_pos length].
  - injection E as -> ->. rewrite Nat.eqb_refl. lia.
  - destruct (Nat.eqb k i); [lia|]. specialize (IH I). lia.
Qed.
Lemma miter_pos_nth i l name : In (name, i) l -> exists n, nth_error l (miter_pos i l) = Some (n, i).
Proof.
  induction l as [|[n k] l IH]; [easy|]. intros I. cbn [miter_pos]. destruct (Nat.eqb_spec k i) as [->|N].
  - exists n. reflexivity.
  - destruct I as [E|I]; [congruence|]. cbn [nth_error]. auto.
Qed.
Lemma iter_length off cs : length (iter_from off cs) = length cs.
Proof. revert off. induction cs as [|c cs IH]; intro off; cbn [iter_from length]; auto. Qed.
Lemma union_iter_length d : is_typed d -> f_code d = tc_Union -> zlen (f_iter d) <= 0xffffffff.
Proof.
  intros (m & D & N) C. pose proof (node_code m d N) as E. destruct m as [code name id cs]. cbn [m_code] in E. rewrite C in E. subst code.
  destruct (node_union _ _ _ _ N) as [_ ->]. unfold zlen. rewrite iter_length.
  destruct (describable_inv _ _ _ _ D) as [(M & W & L & F)|(M & _)]; [exact L|discriminate].
Qed.

Lemma enc_vals_out host be elem e l :
  (forall v, In (Some v) l -> forall pre, elem v (outbuf pre be) = OK (outbuf (pre ++ e v) be)) ->
  forall pre, enc_vals host elem l (outbuf pre be) = OK (outbuf (pre ++ concat (map (enc_opt be e) l)) be).
Proof.
  induction l as [|[v|] l IH]; intros H pre.
  - cbn. now rewrite app_nil_r.
  - cbn [enc_vals map concat enc_opt]. rewrite to_wire_u_out, H by now left. cbn [obind].
    fold (enc_vals host elem). rewrite IH by (intros; apply H; now right). now rewrite <- !app_assoc.
  - cbn [enc_vals map concat enc_opt]. rewrite to_wire_u_out.
    fold (enc_vals host elem). rewrite IH by (intros; apply H; now right). now rewrite <- !app_assoc.
Qed.

Lemma pod_codes c n : pod_width c = Some n -> n = 1%nat \/ n = 2%nat \/ n = 4%nat \/ n = 8%nat.
Proof.
  unfold pod_width. repeat (destruct (_ || _); [injection 1 as <-; auto|]). discriminate.
Qed.
Lemma usable_type v : usable v -> exists m, describable m = true /\ sized m /\ v_nodes v = flatten m.
Proof. intros [m cells D S C]. exists m. auto. Qed.
Lemma enc_node_out host be d s : is_typed d -> f_code d <> tc_Struct -> storable d s ->
  (forall v, part s v -> usable v -> sends host be v) ->
  forall pre, enc_node (to_wire_full host) host d s (outbuf pre be) = OK (outbuf (pre ++ enc_sto (encv be) be d s) be).
Proof.
  intros T NS ST IH pre. unfold enc_node, enc_sto. cbv zeta.
  destruct ST as [d C|d x C R|d x C R|d n x C R|d n x C R|d b C|d x C R|d C|d name i v C I V U|d v C U|d C|d n l C R F|d l C R F|d l C F R].
  - contradiction.
  - rewrite C. cbn [Z.eqb tc_Float32 Pos.eqb]. now rewrite to_wire_u_out.
  - rewrite C. cbn [Z.eqb tc_Float32 tc_Float64 Pos.eqb]. now rewrite to_wire_u_out.
  - pose proof C as C0. unfold int_width in C. rewrite C0.
    repeat (match goal with |- context [if ?c then _ else _] => destruct c eqn:?; [injection C as <-; now rewrite to_wire_u_out|] end).
    discriminate.
  - pose proof C as C0. unfold uint_width in C. rewrite C0.
    repeat (match goal with |- context [if ?c then _ else _] => destruct c eqn:?; [injection C as <-; now rewrite to_wire_u_out|] end).
    discriminate.
  - rewrite C, Z.eqb_refl. now rewrite to_wire_u_out.
  - rewrite C, Z.eqb_refl. rewrite to_wire_str_out by exact R. reflexivity.
  - destruct (Z.eqb_spec (f_code d) tc_Union) as [E|N].
    + rewrite to_wire_sel_out by lia. reflexivity.
    + destruct C as [C|C]; [contradiction|]. rewrite C, Z.eqb_refl. now rewrite to_wire_u_out.
  - pose proof (miter_pos_lt _ _ _ I) as LT. pose proof (union_iter_length d T C) as LN. unfold zlen in LN.
    rewrite C, Z.eqb_refl. replace (length (f_iter d) <=? miter_pos i (f_iter d))%nat with false by lia.
    rewrite to_wire_sel_out by lia. rewrite (IH v (part_sel i v) U). now rewrite <- app_assoc.
  - rewrite C, Z.eqb_refl. change (tc_Any =? tc_Union) with false. cbv iota.
    destruct (usable_type v U) as (m & D & S & VN). rewrite VN, to_wire_nodes_out by exact D. cbn [obind].
    rewrite (IH v (part_sel 0%nat v) U). now rewrite enc_desc_type, <- app_assoc by exact D.
  - assert (Z0 : forall pre, to_wire_size host 0 (outbuf pre be) = outbuf (pre ++ enc_size be 0) be) by (intro; now apply to_wire_size_out).
    destruct (pod_width (f_code d)) as [n|] eqn:P.
    + unfold to_wire_pod. change (zlen []) with 0. rewrite Z0. reflexivity.
    + destruct (f_code d =? tc_StringA) eqn:C1.
      { unfold to_wire_stra. change (zlen []) with 0. now rewrite Z0. }
      destruct T as (m & D & N). rewrite (node_code m d N) in *. destruct m as [code nm id cs]. cbn [m_code] in *.
      replace ((code =? tc_StructA) || (code =? tc_UnionA) || (code =? tc_AnyA)) with true; [now rewrite Z0|].
      destruct (describable_inv _ _ _ _ D) as [(M & _)|(M & LF & _)].
      * unfold has_members, is_array_of_compound in M. apply orb_true_iff in M as [M|M]; apply orb_true_iff in M as [M|M];
        apply Z.eqb_eq in M; subst; try discriminate; reflexivity.
      * destruct (leaf_code_cases code LF) as [I|[_ I]]; cbn [leaf_codes map In] in I; decompose [or] I; subst; try contradiction; try discriminate C; try discriminate P; try discriminate C1; reflexivity.
  - rewrite C. rewrite Z.eqb_refl. unfold to_wire_pod. rewrite to_wire_size_out by (unfold fits32 in F; pose proof (zlen_nonneg l); lia).
    rewrite to_wire_elems_out. now rewrite <- app_assoc.
  - rewrite C. change (pod_width tc_StringA) with (@None nat). cbv iota. rewrite Z.eqb_refl. unfold to_wire_stra.
    rewrite to_wire_size_out by (unfold fits32 in F; pose proof (zlen_nonneg l); unfold str in *; lia).
    rewrite to_wire_strs_out by exact R. now rewrite <- app_assoc.
  - assert (P : pod_width (f_code d) = None) by (destruct C as [C|[C|C]]; rewrite C; reflexivity).
    assert (P1 : (f_code d =? tc_StringA) = false) by (destruct C as [C|[C|C]]; rewrite C; reflexivity).
    assert (P2 : (f_code d =? tc_StructA) || (f_code d =? tc_UnionA) || (f_code d =? tc_AnyA) = true) by (destruct C as [C|[C|C]]; rewrite C; reflexivity).
    rewrite P, P1, P2. rewrite to_wire_size_out by (unfold fits32 in F; pose proof (zlen_nonneg l); lia).
    erewrite enc_vals_out; [now rewrite <- app_assoc|].
    intros v I pre'. rewrite Forall_forall in R. destruct (R _ I v eq_refl) as [U _].
    destruct (f_code d =? tc_AnyA).
    + destruct (usable_type v U) as (m & D & S & VN). rewrite VN, to_wire_nodes_out by exact D. cbn [obind].
      rewrite (IH v (part_elem l v I) U). now rewrite enc_desc_type, <- app_assoc by exact D.
    + rewrite (IH v (part_elem l v I) U). reflexivity.
Qed.

Lemma enc_nodes_out host be cells : forall nodes, Forall is_typed nodes -> good_cells nodes cells ->
  (forall c v, In c cells -> part (snd c) v -> usable v -> sends host be v) -> forall n pre, n = length nodes ->
  enc_nodes (to_wire_full host) host cells nodes n (outbuf pre be) = OK (outbuf (pre ++ enc_cells be cells nodes) be).
Proof.
  induction cells as [|[vl s] cells IHc]; intros nodes T C IH n pre ->.
  - inversion C; subst. cbn. now rewrite app_nil_r.
  - inversion C as [|d c nodes' cells' H1 H2]; subst. inversion T; subst. cbn [length enc_nodes enc_cells].
    fold (enc_nodes (to_wire_full host) host).
    assert (IH' : forall c v, In c cells -> part (snd c) v -> usable v -> sends host be v) by (intros; eapply IH; eauto; now right).
    destruct (Z.eqb_spec (f_code d) tc_Struct) as [E|N].
    + cbn [app]. now apply IHc.
    + cbn [snd] in H1. rewrite (enc_node_out host be d s); auto.
      2:{ intros v P U. apply (IH (vl, s)); auto. now left. }
      cbn [obind]. rewrite IHc by auto. now rewrite <- app_assoc.
Qed.
(** of the node at the head of [nodes] *)
Lemma enc_field_out host be cells nodes : Forall is_typed nodes -> good_cells nodes cells -> nodes <> [] ->
  lay nodes ->
  (forall c v, In c cells -> part (snd c) v -> usable v -> sends host be v) -> forall rest crest pre,
  enc_field (to_wire_full host) host (cells ++ crest) (nodes ++ rest) (outbuf pre be) = OK (outbuf (pre ++ enc_cells be cells nodes) be).
Proof.
  intros T C NN LY IH rest crest pre. pose proof (lay_length nodes LY) as LL. pose proof C as C0.
  destruct C as [|d [vl s] nodes cells C1 C2]; [easy|]. cbn [first_node hd snd] in *. inversion T; subst.
  unfold enc_field. cbn [app].
  pose proof (storable_struct d s C1) as SS.
  destruct (Z.eqb_spec (f_code d) tc_Struct) as [E|N].
  - specialize (SS E). subst s. rewrite LL.
    assert (G : forall n cells nodes w, n = length nodes -> length cells = length nodes ->
      enc_nodes (to_wire_full host) host (cells ++ crest) (nodes ++ rest) n w = enc_nodes (to_wire_full host) host cells nodes n w).
    { clear. induction n as [|n IHn]; intros cells nodes w N L; [destruct cells, crest; reflexivity|]. destruct nodes as [|d nodes]; [discriminate|].
      destruct cells as [|[vl s] cells]; [discriminate|]. cbn [app enc_nodes]. fold (enc_nodes (to_wire_full host) host).
      cbn [length] in *. destruct (f_code d =? tc_Struct); [apply IHn; lia|].
      destruct (enc_node _ _ _ _ _); cbn [obind]; [apply IHn; lia| |]; reflexivity. }
    change ((vl, SNull) :: cells ++ crest) with (((vl, SNull) :: cells) ++ crest).
    change (d :: nodes ++ rest) with ((d :: nodes) ++ rest).
    rewrite G; [|reflexivity|]. 2:{ symmetry. apply (good_cells_length _ _ C0). }
    apply (enc_nodes_out host be ((vl, SNull) :: cells) (d :: nodes)); auto.
  - assert (length nodes = 0%nat).
    { inversion LY; subst; cbn [length] in *; [lia|]. contradiction. }
    destruct nodes; [|discriminate]. inversion C2; subst.
    cbn [enc_cells]. replace (f_code d =? tc_Struct) with false by lia. rewrite app_nil_r.
    rewrite (enc_node_out host be d s); auto.
    2:{ intros v P U. apply (IH (vl, s)); auto. now left. }
    destruct s; try reflexivity. inversion C1; subst. contradiction.
Qed.

(** A usable value is encoded without fault, exception or abort. *)
Lemma usable_sends host be v : usable v -> sends host be v.
Proof.
  revert v. apply (value_part_ind (fun v => usable v -> sends host be v)). intros nodes cells IH U pre.
  inversion U as [m cells' D S C [E1 E2]]. subst cells'. cbn [to_wire_full]. rewrite encv_eq.
  pose proof (enc_field_out host be cells nodes) as K. subst nodes.
  specialize (K (flatten_typed m D) C (flatten_not_nil m) (sized_lay m D S)).
  specialize (K ltac:(intros; eapply IH; eauto) [] [] pre). now rewrite !app_nil_r in K.
Qed.
