(** Encoding a value and decoding it again. *)
From Coq Require Import ZArith List Bool Lia ZifyBool ZifyNat.
From Verif Require Import Base BaseProofs WireModel WireSpec WireProofs SegModel SegSpec SegProofs
  BitMaskModel BitMaskSpec BitMaskProofs TypeModel TypeSpec TypeProofs TypeNameProofs
  ValueModel ValueSpec LayoutProofs ValueTypeProofs ValueSafeProofs ValueTopProofs ValueEncProofs.
Import ListNotations.
Local Open Scope Z_scope.

(** ** values of good types *)
Definition is_good (d : fdesc) : Prop := exists m, good_type m /\ is_node m d.
Lemma flatten_good m : good_type m -> Forall is_good (flatten m).
Proof.
  intro D. apply Forall_forall. intros d I.
  destruct (flatten_nodes good_type good_hereditary m D d I) as (m' & D' & N). now exists m'.
Qed.
Lemma good_describable m : good_type m -> describable m = true.
Proof. now intros (D & _). Qed.
Lemma good_typed d : is_good d -> is_typed d.
Proof. intros (m & G & N). exists m. split; [now apply good_describable|exact N]. Qed.

Lemma good_union d i name : is_good d -> f_code d = tc_Union -> In (name, i) (f_iter d) ->
  exists c, good_type c /\ sub_desc i (f_members d) = flatten c.
Proof.
  intros (m & G & N) C I. pose proof (node_code m d N) as E. destruct m as [code nm id cs]. cbn [m_code] in E. rewrite C in E. subst code.
  pose proof (good_hereditary _ _ _ _ G) as GC. rewrite Forall_forall in GC.
  destruct (union_sub nm id cs d name i (good_describable _ G) N I) as (c & IC & _ & D & S).
  exists c. split; [now apply GC|]. rewrite S. apply sized_firstn, good_sized. now apply GC.
Qed.
Lemma good_members d : is_good d -> is_array_of_compound (f_code d) = true ->
  exists c, good_type c /\ f_members d = flatten c /\ m_code c = tc_scalarOf (f_code d) /\ sub_desc 0 (f_members d) = flatten c.
Proof.
  intros (m & G & N) C. pose proof (node_code m d N) as E. destruct m as [code nm id cs]. cbn [m_code] in E. rewrite E in *.
  destruct (node_array _ _ _ _ _ C N) as [M _]. pose proof (good_element _ _ _ _ C G) as GE.
  eexists. split; [exact GE|]. split; [exact M|]. split; [reflexivity|]. rewrite M, sub_desc_0. apply sized_firstn, good_sized, GE.
Qed.
Lemma first_good c : good_type c -> is_good (first_node (flatten c)) /\ f_code (first_node (flatten c)) = m_code c.
Proof.
  intro G. split; [|apply flatten_hd_code]. destruct (is_node_self c) as (d & r & E & N). rewrite E. exists c. auto.
Qed.

Lemma node_ok_storable d s : is_good d -> node_ok d s ->
  (forall v m, part s v -> good_type m -> v_nodes v = flatten m -> cells_ok v -> usable v) -> storable d s.
Proof.
  intros G H IH.
  destruct H as [d C|d x C R|d x C R|d n x C R|d n x C R|d b C|d x C R|d C|d name i v C I V U|d m v C GM LV V U|d C|d n l C R F|d l C R F|d l C F R|d l C F R].
  - now apply st_struct. - now apply st_float32. - now apply st_float64. - eapply st_int; eauto. - eapply st_uint; eauto.
  - now apply st_bool. - now apply st_str. - now apply st_unselected.
  - destruct (good_union d i name G C I) as (c & GC & S). eapply st_union; eauto. apply (IH v c); auto; [constructor|congruence].
  - apply st_any; [exact C|]. apply (IH v m); auto. constructor.
  - now apply st_untyped. - eapply st_pod; eauto. - now apply st_strs.
  - apply st_vals; [tauto|exact F|]. rewrite Forall_forall in *. intros o I v ->. destruct (R _ I v eq_refl) as [V U].
    destruct (good_members d G) as (c & GC & M & _); [destruct C as [C|C]; rewrite C; reflexivity|].
    split; [|intros; congruence]. apply (IH v c); auto; [now constructor|congruence].
  - apply st_vals; [tauto|exact F|]. rewrite Forall_forall in *. intros o I v ->. destruct (R _ I v eq_refl) as [(m & GM & LV & V) U].
    split; [|rewrite C; discriminate]. apply (IH v m); auto. now constructor.
Qed.
Lemma good_usable v : forall m, good_type m -> v_nodes v = flatten m -> cells_ok v -> usable v.
Proof.
  revert v. apply (value_part_ind (fun v => forall m, good_type m -> v_nodes v = flatten m -> cells_ok v -> usable v)).
  intros nodes cells IH m G V U. cbn [v_nodes] in V. subst nodes. inversion U as [n c F]; subst.
  constructor; [now apply good_describable|now apply good_sized|].
  pose proof (flatten_good m G) as FG.
  revert F IH FG. generalize (flatten m). intros nodes F. clear U. induction F as [|d c nodes cells H _ IHF]; intros IH FG; constructor.
  - inversion FG; subst. apply node_ok_storable; auto. intros v' m' P. apply (IH c v'); [now left|exact P].
  - inversion FG; subst. apply IHF; auto. intros c' v' I. apply IH. now right.
Qed.
Lemma value_of_usable m v : value_of m v -> usable v.
Proof. intros (G & V & U). eapply good_usable; eauto. Qed.

(** ** decoding *)
Definition gets (host be : bool) (v : value) : Prop :=
  forall fuel rest ts, (length (encv be v) < fuel)%nat ->
  run_flat (dec_new (dec_node fuel host) (v_nodes v) ts) (inbuf (encv be v ++ rest) be) = (DOK (received v, ts), inbuf rest be).

Lemma run_dbind {A B} (p : rprog (dres A)) (f : A -> rprog (dres B)) b a b' :
  run_flat p b = (DOK a, b') -> run_flat (dbind p f) b = run_flat (f a) b'.
Proof. intro E. unfold dbind. now rewrite run_flat_bind, E. Qed.
Lemma run_pbind {A B} (p : rprog A) (f : A -> rprog B) b a b' :
  run_flat p b = (a, b') -> run_flat (pbind p f) b = run_flat (f a) b'.
Proof. intro E. now rewrite run_flat_bind, E. Qed.

Lemma enc_u_cast be n x : enc_u be n (u_cast n x) = enc_u be n x.
Proof. unfold enc_u. now rewrite (u_cast_id n (u_cast n x)) by apply u_cast_range. Qed.
Lemma enc_elems_cast be n l : enc_elems be n (map (u_cast n) l) = enc_elems be n l.
Proof. induction l as [|x l IH]; cbn [map enc_elems]; [reflexivity|]. now rewrite enc_u_cast, IH. Qed.

Lemma pod_in h be c n l rest : pod_width c = Some n -> Forall (pod_elem c n) l -> fits32 l ->
  exists l', from_wire_pod h n (inbuf ((enc_size be (zlen l) ++ enc_elems be n l) ++ rest) be) = (l', inbuf rest be) /\
    (if pod_signed c then map (s_cast n) l' else l') = l.
Proof.
  intros W F L. unfold from_wire_pod. pose proof (zlen_nonneg l). rewrite <- app_assoc, from_wire_size_in by (unfold fits32 in L; lia).
  assert (N : (0 < n)%nat) by (apply pod_codes in W; lia). rewrite zlen_to_nat.
  unfold pod_elem in F. destruct (pod_signed c).
  - exists (map (u_cast n) l). split.
    + rewrite <- enc_elems_cast, <- (map_length (u_cast n) l). apply from_wire_elems_in.
      apply Forall_forall. intros x I. apply in_map_iff in I as (y & <- & _). apply u_cast_range.
    + rewrite map_map. rewrite <- (map_id l) at 2. apply map_ext_in. intros x I. rewrite Forall_forall in F.
      apply s_cast_u_cast; [exact N|]. now apply F.
  - exists l. split; [|reflexivity]. now apply from_wire_elems_in.
Qed.
Lemma stra_in h be l rest : Forall fits32 l -> fits32 l ->
  from_wire_stra h (inbuf ((enc_size be (zlen l) ++ enc_strs be l) ++ rest) be) = (l, inbuf rest be).
Proof.
  intros F L. unfold from_wire_stra. pose proof (zlen_nonneg l). rewrite <- app_assoc, from_wire_size_in by (unfold fits32, str in *; lia).
  rewrite zlen_to_nat. now apply from_wire_strs_in.
Qed.

Lemma dec_elems_in be elem e g ts l :
  (forall o, In o l -> forall rest, run_flat (elem ts) (inbuf (enc_opt be e o ++ rest) be) = (DOK (Some (g o), ts), inbuf rest be)) ->
  forall rest, run_flat (dec_elems (length l) elem ts) (inbuf (concat (map (enc_opt be e) l) ++ rest) be)
    = (DOK (Some (map g l), ts), inbuf rest be).
Proof.
  induction l as [|o l IH]; intros H rest; [reflexivity|]. cbn [length dec_elems map concat]. rewrite <- app_assoc.
  erewrite run_dbind by (apply H; now left). cbn [fst snd].
  erewrite run_dbind by (apply IH; intros; apply H; now right). reflexivity.
Qed.

Lemma opt_length be e l v : In (Some v) l -> (length (e v) < length (concat (map (enc_opt be e) l)))%nat.
Proof.
  induction l as [|o l IH]; [easy|]. intros [->|I]; cbn [map concat]; rewrite app_length.
  - cbn [enc_opt]. rewrite app_length, enc_u_length. lia.
  - specialize (IH I). lia.
Qed.
Lemma enc_size_pos be n : (0 < length (enc_size be n))%nat.
Proof. pose proof (enc_size_len be n) as H. unfold zlen in H. lia. Qed.
Lemma enc_sel_pos be n : (0 < length (enc_sel be n))%nat.
Proof. unfold enc_sel. destruct (n <=? -1); [cbn; lia|apply enc_size_pos]. Qed.
Lemma enc_type_pos be m : (0 < length (enc_type be m))%nat.
Proof. destruct m as [code name id cs]. cbn [enc_type]. destruct (is_array_of_compound code); [cbn; lia|]. destruct (_ || _); cbn; lia. Qed.

Lemma dec_any_in host be v m fuel rest ts : good_type m -> (levels m <= 21)%nat -> v_nodes v = flatten m -> gets host be v ->
  (length (encv be v) < fuel)%nat ->
  run_flat (dec_any (dec_node fuel host) host ts) (inbuf (enc_desc be (v_nodes v) ++ encv be v ++ rest) be)
    = (DOK (Some (Some (received v)), ts), inbuf rest be).
Proof.
  intros G LV V GT LT. pose proof (good_describable _ G) as D. rewrite V, enc_desc_type by exact D. unfold dec_any.
  erewrite run_pbind by (rewrite p_desc_ok; apply (decodes_all host be m D 21%nat); exact LV).
  cbn [run_flat fst snd]. cbn [rgood rerr inbuf negb]. 
  destruct (flatten_cons m) as (d & r & E & _). rewrite E. cbn [is_nil]. rewrite <- E, <- V.
  erewrite run_dbind by (apply GT; exact LT). reflexivity.
Qed.

Definition kind_for (d : fdesc) (s : sto value) : Prop := exists s', sto_init (f_code d) = Some s' /\ same_kind s' s.

Ltac kinds K C := let s' := fresh "ks" in let E := fresh "kE" in let K' := fresh "kK" in
  destruct K as (s' & E & K'); rewrite C in E; vm_compute in E; injection E as <-; cbn [same_kind] in K'.

Lemma int_codes c n : int_width c = Some n -> In (c, n) [(tc_Int8, 1%nat); (tc_Int16, 2%nat); (tc_Int32, 4%nat); (tc_Int64, 8%nat)].
Proof.
  unfold int_width. repeat match goal with |- context [?a =? ?b] => destruct (Z.eqb_spec a b) as [->|]; [injection 1 as <-; cbn; tauto|] end. discriminate.
Qed.
Lemma uint_codes c n : uint_width c = Some n -> In (c, n) [(tc_UInt8, 1%nat); (tc_UInt16, 2%nat); (tc_UInt32, 4%nat); (tc_UInt64, 8%nat)].
Proof.
  unfold uint_width. repeat match goal with |- context [?a =? ?b] => destruct (Z.eqb_spec a b) as [->|]; [injection 1 as <-; cbn; tauto|] end. discriminate.
Qed.
Lemma pod_array c n : pod_width c = Some n -> tc_isarray c = true.
Proof.
  unfold pod_width. repeat match goal with |- context [?a =? ?b] => destruct (Z.eqb_spec a b) as [->|]; [reflexivity|]; cbn [orb] end. discriminate.
Qed.
Lemma array_kind d s : kind_for d s -> tc_isarray (f_code d) = true -> exists a, s = SArr a.
Proof.
  intros (s' & E & K) A. unfold sto_init in E. rewrite A in E. injection E as <-. destruct s; cbn in K; try contradiction. eauto.
Qed.

Lemma dec_node_in host be d s : is_good d -> f_code d <> tc_Struct -> node_ok d s ->
  (forall v m, (vsize v <= sto_size vsize s)%nat -> good_type m -> v_nodes v = flatten m -> cells_ok v -> gets host be v) ->
  forall f rest s0 ts, kind_for d s0 -> (length (enc_sto (encv be) be d s) <= f)%nat ->
  run_flat (dec_node_step (dec_node f host) host d s0 ts) (inbuf (enc_sto (encv be) be d s ++ rest) be)
    = (DOK (recv_sto received d s, ts), inbuf rest be).
Proof.
  intros G NS OK0 IH f rest s0 ts K LE.
  destruct OK0 as [d C|d x C R|d x C R|d n x C R|d n x C R|d b C|d x C R|d C|d name i v C I V U|d m v C GM LV V U|d C|d n l C R F|d l C R F|d l C F R|d l C F R].
  - contradiction.
  - kinds K C. destruct s0; try contradiction. unfold dec_node_step, enc_sto. cbv zeta. rewrite C, Z.eqb_refl.
    erewrite run_pbind by (rewrite p_u_ok; apply from_wire_u_in; exact R). reflexivity.
  - kinds K C. destruct s0; try contradiction. unfold dec_node_step, enc_sto. cbv zeta. rewrite C, Z.eqb_refl.
    change (tc_Float64 =? tc_Float32) with false. cbv iota.
    erewrite run_pbind by (rewrite p_u_ok; apply from_wire_u_in; exact R). reflexivity.
  - unfold enc_sto. rewrite C.
    assert (exists z, s0 = SInt z) as [z ->].
    { apply int_codes in C. destruct K as (s' & E & K). cbn in C. decompose [or] C; try contradiction;
      match goal with [ H : (_, _) = (_, _) |- _ ] => injection H as H _; rewrite <- H in E end; vm_compute in E; injection E as <-;
      destruct s0; cbn in K; try contradiction; eauto. }
    unfold dec_node_step. cbv zeta. apply int_codes in C. cbn in C. decompose [or] C; try contradiction;
      match goal with [ H : (_, _) = (_, _) |- _ ] => injection H as H <-; rewrite <- H end; 
      cbn [Z.eqb tc_Int8 tc_Int16 tc_Int32 tc_Int64 Pos.eqb];
      (erewrite run_pbind by (rewrite p_s_ok; apply from_wire_s_in; [lia|exact R])); reflexivity.
  - unfold enc_sto. rewrite C.
    assert (exists z, s0 = SUInt z) as [z ->].
    { apply uint_codes in C. destruct K as (s' & E & K). cbn in C. decompose [or] C; try contradiction;
      match goal with [ H : (_, _) = (_, _) |- _ ] => injection H as H _; rewrite <- H in E end; vm_compute in E; injection E as <-;
      destruct s0; cbn in K; try contradiction; eauto. }
    unfold dec_node_step. cbv zeta. apply uint_codes in C. cbn in C. decompose [or] C; try contradiction;
      match goal with [ H : (_, _) = (_, _) |- _ ] => injection H as H <-; rewrite <- H end; 
      cbn [Z.eqb tc_UInt8 tc_UInt16 tc_UInt32 tc_UInt64 Pos.eqb];
      (erewrite run_pbind by (rewrite p_u_ok; apply from_wire_u_in; exact R)); reflexivity.
  - kinds K C. destruct s0; try contradiction. unfold dec_node_step, enc_sto. cbv zeta. rewrite C, Z.eqb_refl.
    erewrite run_pbind by (rewrite p_u_ok; apply from_wire_u_in; destruct b; cbn; lia). destruct b; reflexivity.
  - kinds K C. destruct s0; try contradiction. unfold dec_node_step, enc_sto. cbv zeta. rewrite C, Z.eqb_refl.
    erewrite run_pbind by (rewrite p_str_ok; apply from_wire_str_in; exact R). reflexivity.
  - assert (exists o, s0 = SSel o) as [o ->].
    { destruct C as [C|C]; kinds K C; destruct s0; try contradiction; eauto. }
    unfold dec_node_step, enc_sto. cbv zeta. destruct (Z.eqb_spec (f_code d) tc_Union) as [E|N].
    + erewrite run_pbind by (rewrite p_sel_ok; apply from_wire_sel_in; lia). reflexivity.
    + destruct C as [C|C]; [contradiction|]. replace (f_code d =? tc_Any) with true by lia. unfold dec_any.
      assert (X : run_flat (p_desc 21 host ts) (inbuf (enc_u be 1 255 ++ rest) be) = (([], ts), inbuf rest be)).
      { rewrite p_desc_ok, from_wire_desc_S. cbn [rgood rerr inbuf negb]. fold (inbuf (enc_u be 1 255 ++ rest) be).
        rewrite from_wire_u_in by (cbn; lia). reflexivity. }
      erewrite run_dbind; [|erewrite run_pbind by exact X; cbn; reflexivity]. reflexivity.
  - kinds K C. destruct s0; try contradiction. unfold dec_node_step, enc_sto in *. cbv zeta in *. rewrite C, Z.eqb_refl in *.
    pose proof (miter_pos_lt _ _ _ I) as LT. pose proof (union_iter_length d (good_typed d G) C) as LN. unfold zlen in LN.
    rewrite <- app_assoc. erewrite run_pbind by (rewrite p_sel_ok; apply from_wire_sel_in; lia).
    replace (Z.of_nat (miter_pos i (f_iter d)) <? 0) with false by lia. rewrite Nat2Z.id.
    destruct (miter_pos_nth _ _ _ I) as (n' & ->). rewrite <- V.
    destruct (good_union d i name G C I) as (c & GC & S).
    pose proof (enc_sel_pos be (Z.of_nat (miter_pos i (f_iter d)))) as SP. rewrite app_length in LE.
    erewrite run_dbind by (apply (IH v c); [cbn [sto_size]; lia|exact GC|congruence|exact U|lia]). reflexivity.
  - kinds K C. destruct s0; try contradiction. unfold dec_node_step, enc_sto in *. cbv zeta in *. rewrite C, Z.eqb_refl in *.
    change (tc_Any =? tc_Union) with false in *. cbv iota in *.
    rewrite app_length in LE. pose proof (enc_type_pos be m) as TP. rewrite <- (enc_desc_type be m), <- V in TP by now apply good_describable.
    rewrite <- app_assoc. erewrite run_dbind by (apply (dec_any_in host be v m); auto; [apply (IH v m); [cbn [sto_size]; lia|exact GM|exact V|exact U]|lia]). reflexivity.
  - destruct (array_kind d s0 K C) as [a ->]. unfold dec_node_step, enc_sto in *. cbv zeta in *. unfold recv_sto, empty_arr.
    assert (SZ : forall b, run_flat (p_size host 0 false) (inbuf (enc_size be 0 ++ rest) be) = b -> b = (0, inbuf rest be)).
    { intros b <-. rewrite p_size_ok. apply from_wire_size_in. lia. }
    destruct (pod_width (f_code d)) as [n|] eqn:P.
    + destruct (pod_in host be (f_code d) n [] rest P (Forall_nil _) ltac:(unfold fits32; cbn; lia)) as (l' & E1 & E2).
      cbn [enc_elems] in E1. change (zlen []) with 0 in E1. rewrite app_nil_r in E1.
      erewrite run_pbind by (rewrite p_pod_ok; exact E1). rewrite E2. reflexivity.
    + destruct (f_code d =? tc_StringA) eqn:C1.
      { pose proof (stra_in host be [] rest (Forall_nil _) ltac:(unfold fits32; cbn; lia)) as E1.
        cbn [enc_strs] in E1. change (zlen []) with 0 in E1. rewrite app_nil_r in E1.
        erewrite run_pbind by (rewrite p_stra_ok; exact E1). reflexivity. }
      assert (X : (f_code d =? tc_StructA) = true \/ (f_code d =? tc_UnionA) = true \/ (f_code d =? tc_AnyA) = true).
      { destruct G as (m & D & N). apply good_describable in D. rewrite (node_code m d N) in *. destruct m as [code nm id cs]. cbn [m_code] in *.
        destruct (describable_inv _ _ _ _ D) as [(M & _)|(M & LF & _)].
        * unfold has_members, is_array_of_compound in M. apply orb_true_iff in M as [M|M]; apply orb_true_iff in M as [M|M];
          apply Z.eqb_eq in M; subst; try discriminate; auto.
        * destruct (leaf_code_cases code LF) as [I|[_ I]]; cbn [leaf_codes map In] in I; decompose [or] I; subst; try contradiction; try discriminate C; try discriminate P; try discriminate C1; auto. }
      destruct (f_code d =? tc_StructA); [|destruct (f_code d =? tc_UnionA); [|destruct (f_code d =? tc_AnyA); [|exfalso; intuition discriminate]]];
      (erewrite run_pbind by (rewrite p_size_ok; apply from_wire_size_in; lia)); reflexivity.
  - destruct (array_kind d s0 K (pod_array _ _ C)) as [a ->]. unfold dec_node_step, enc_sto in *. cbv zeta in *. rewrite C in *.
    destruct (pod_in host be (f_code d) n l rest C R F) as (l' & E1 & E2).
    erewrite run_pbind by (rewrite p_pod_ok; exact E1). rewrite E2. reflexivity.
  - destruct (array_kind d s0 K) as [a ->]; [now rewrite C|]. unfold dec_node_step, enc_sto in *. cbv zeta in *. rewrite C in *.
    change (pod_width tc_StringA) with (@None nat). cbv iota. rewrite Z.eqb_refl.
    erewrite run_pbind by (rewrite p_stra_ok; now apply stra_in). reflexivity.
  - destruct (array_kind d s0 K) as [a ->]; [destruct C as [C|C]; now rewrite C|].
    assert (AC : is_array_of_compound (f_code d) = true) by (destruct C as [C|C]; rewrite C; reflexivity).
    assert (PW : pod_width (f_code d) = None) by (destruct C as [C|C]; rewrite C; reflexivity).
    assert (SA : (f_code d =? tc_StringA) = false) by (destruct C as [C|C]; rewrite C; reflexivity).
    assert (AA : (f_code d =? tc_AnyA) = false) by (destruct C as [C|C]; rewrite C; reflexivity).
    unfold dec_node_step, enc_sto in *. cbv zeta in *. rewrite PW, SA, AA in *.
    destruct (good_members d G AC) as (c & GC & M & MC & SD). rewrite app_length in LE.
    pose proof (enc_size_pos be (zlen l)) as SP. pose proof (zlen_nonneg l).
    rewrite Forall_forall in R. unfold recv_sto. rewrite <- app_assoc.
    destruct (Z.eqb_spec (f_code d) tc_StructA) as [CS|NSA].
    + erewrite run_pbind by (rewrite p_size_ok; apply from_wire_size_in; unfold fits32 in F; lia). rewrite zlen_to_nat.
      erewrite run_dbind; [|apply (dec_elems_in be _ _ (recv_elem received (f_code d)))].
      2:{ intros o I rest'. destruct o as [v|]; cbn [enc_opt].
          - rewrite <- app_assoc. erewrite run_pbind by (rewrite p_u_ok; apply from_wire_u_in; cbn; lia). 
            change (1 =? 0) with false. cbv iota. cbn [app]. destruct (R _ I v eq_refl) as [V U]. rewrite SD, <- M, <- V.
            pose proof (opt_length be (fun v => [] ++ encv be v) l v I) as OL. cbv beta in OL. change ([] ++ encv be v) with (encv be v) in OL.
            erewrite run_dbind by (apply (IH v c); [apply part_size; now constructor|exact GC|congruence|exact U|lia]).
            unfold recv_elem. rewrite CS. reflexivity.
          - erewrite run_pbind by (rewrite p_u_ok; apply from_wire_u_in; cbn; lia). reflexivity. }
      reflexivity.
    + destruct C as [C|C]; [contradiction|]. rewrite C, Z.eqb_refl.
      erewrite run_pbind by (rewrite p_size_ok; apply from_wire_size_in; unfold fits32 in F; lia). rewrite zlen_to_nat.
      erewrite run_dbind; [|apply (dec_elems_in be _ _ (recv_elem received tc_UnionA))].
      2:{ intros o I rest'. destruct o as [v|]; cbn [enc_opt].
          - rewrite <- app_assoc. erewrite run_pbind by (rewrite p_u_ok; apply from_wire_u_in; cbn; lia). 
            change (1 =? 0) with false. cbv iota. cbn [app]. destruct (R _ I v eq_refl) as [V U].
            pose proof (opt_length be (fun v => [] ++ encv be v) l v I) as OL. cbv beta in OL. change ([] ++ encv be v) with (encv be v) in OL.
            destruct (first_good c GC) as [FG FC]. rewrite M in *. 
            assert (UC : f_code (first_node (flatten c)) = tc_Union) by (rewrite FC, MC, C; reflexivity).
            assert (ONE : exists u, flatten c = [u]).
            { pose proof (sized_lay c (good_describable _ GC) (good_sized _ GC)) as LY. inversion LY as [x X1 X2|x kids X1 X2 X3]; [eauto|].
              rewrite <- H0 in UC. cbn [first_node hd] in UC. rewrite X1 in UC. discriminate. }
            destruct ONE as [u EU]. rewrite EU in *. cbn [first_node hd] in *.
            assert (VS : (vsize v <= sto_size vsize (SArr (AVals l)))%nat) by (apply part_size; now constructor).
            inversion U as [n' c' F2]. subst v. cbn [v_nodes] in V. subst n'.
            inversion F2 as [|? [vl s] ? ? OK1 F3]. subst. inversion F3. subst. cbn [snd] in OK1.
            rewrite encv_eq in *. cbn [enc_cells] in *. replace (f_code u =? tc_Struct) with false in * by (rewrite UC; reflexivity).
            rewrite app_nil_r in *.
            inversion OK1 as [? X|? ? X|? ? X|? ? ? X|? ? ? X|? ? X|? ? X|? X|? nm i w X I2 V2 U2|? ? ? X|? X|? ? ? X|? ? X|? ? X|? ? X]; subst;
              try (exfalso; rewrite UC in X; vm_compute in X; (discriminate || decompose [or] X; discriminate)).
            + unfold enc_sto. rewrite UC, Z.eqb_refl. erewrite run_pbind by (rewrite p_sel_ok; apply from_wire_sel_in; lia). reflexivity.
            + unfold enc_sto in *. cbv zeta in *. rewrite UC, Z.eqb_refl in *.
              pose proof (miter_pos_lt _ _ _ I2) as LT. pose proof (union_iter_length u (good_typed u FG) UC) as LN. unfold zlen in LN.
              rewrite <- app_assoc. erewrite run_pbind by (rewrite p_sel_ok; apply from_wire_sel_in; lia).
              replace (Z.of_nat (miter_pos i (f_iter u)) <? 0) with false by lia. rewrite Nat2Z.id.
              destruct (miter_pos_nth _ _ _ I2) as (n' & ->). rewrite <- V2.
              destruct (good_union u i nm FG UC I2) as (cc & GCC & S).
              rewrite app_length in OL.
              assert (VS2 : (vsize w < vsize (Val [u] [(vl, SSel (Some (i, w)))]))%nat).
              { apply (cell_part_size _ _ (vl, SSel (Some (i, w)))); [now left|constructor]. }
              erewrite run_dbind by (apply (IH w cc); [lia|exact GCC|congruence|exact U2|lia]). reflexivity.
          - erewrite run_pbind by (rewrite p_u_ok; apply from_wire_u_in; cbn; lia). reflexivity. }
      reflexivity.
  - destruct (array_kind d s0 K) as [a ->]; [now rewrite C|].
    unfold dec_node_step, enc_sto in *. cbv zeta in *. rewrite C in *. rewrite Z.eqb_refl in *.
    change (pod_width tc_AnyA) with (@None nat). change (tc_AnyA =? tc_StringA) with false. change (tc_AnyA =? tc_StructA) with false.
    change (tc_AnyA =? tc_UnionA) with false. cbv iota. rewrite app_length in LE.
    pose proof (enc_size_pos be (zlen l)) as SP. pose proof (zlen_nonneg l).
    rewrite Forall_forall in R. unfold recv_sto. rewrite <- app_assoc.
    erewrite run_pbind by (rewrite p_size_ok; apply from_wire_size_in; unfold fits32 in F; lia). rewrite zlen_to_nat.
    erewrite run_dbind; [|apply (dec_elems_in be _ _ (recv_elem received tc_AnyA))].
    2:{ intros o I rest'. destruct o as [v|]; cbn [enc_opt].
        - rewrite <- !app_assoc. erewrite run_pbind by (rewrite p_u_ok; apply from_wire_u_in; cbn; lia). 
          change (1 =? 0) with false. cbv iota. destruct (R _ I v eq_refl) as [(m & GM & LV & V) U].
          pose proof (opt_length be (fun v => enc_desc be (v_nodes v) ++ encv be v) l v I) as OL. cbv beta in OL. rewrite app_length in OL.
          apply (dec_any_in host be v m); auto; [|lia]. apply (IH v m); auto. apply part_size. now constructor.
        - erewrite run_pbind by (rewrite p_u_ok; apply from_wire_u_in; cbn; lia). reflexivity. }
    rewrite C. reflexivity.
Qed.

(** ** whole values *)
Fixpoint filled (nodes : list fdesc) (old cells : list cell) : list cell :=
  match nodes, old, cells with
  | d :: nodes', o :: old', c :: cells' =>
      (if f_code d =? tc_Struct then o else (true, recv_sto received d (snd c))) :: filled nodes' old' cells'
  | _, _, _ => []
  end.
Definition kinds_for (nodes : list fdesc) (cells : list cell) : Prop := Forall2 (fun d c => kind_for d (snd c)) nodes cells.
Definition oks (nodes : list fdesc) (cells : list cell) : Prop := Forall2 (fun d c => node_ok d (snd c)) nodes cells.

Lemma dec_nodes_in host be f : forall nodes cells old, Forall is_good nodes -> oks nodes cells -> kinds_for nodes old ->
  (forall c v m, In c cells -> (vsize v <= sto_size vsize (snd c))%nat -> good_type m -> v_nodes v = flatten m -> cells_ok v -> gets host be v) ->
  forall rest nrest crest ts, (length (enc_cells be cells nodes) <= f)%nat ->
  run_flat (dec_nodes (dec_node (S f) host) (length nodes) (nodes ++ nrest) (old ++ crest) ts) (inbuf (enc_cells be cells nodes ++ rest) be)
    = (DOK (filled nodes old cells ++ crest, ts), inbuf rest be).
Proof.
  induction nodes as [|d nodes IHn]; intros cells old G OK0 K IH rest nrest crest ts LE.
  - inversion OK0; inversion K; subst. reflexivity.
  - inversion OK0 as [|? [vl s] ? cells' H1 H2]; inversion K as [|? [vo so] ? old' K1 K2]; inversion G as [|? ? G1 G2]; subst.
    cbn [length enc_cells filled snd] in *. cbn [app]. cbn [dec_nodes].
    assert (IH' : forall c v m, In c cells' -> (vsize v <= sto_size vsize (snd c))%nat -> good_type m -> v_nodes v = flatten m -> cells_ok v -> gets host be v)
      by (intros; eapply IH; eauto; now right).
    destruct (Z.eqb_spec (f_code d) tc_Struct) as [E|N].
    + cbn [app] in *. erewrite run_dbind by (apply IHn; auto). reflexivity.
    + rewrite app_length in LE. rewrite <- app_assoc.
      erewrite run_dbind.
      2:{ cbn [dec_node]. apply dec_node_in; auto; [|lia]. intros v m. apply (IH (vl, s)). now left. }
      cbn [fst snd]. erewrite run_dbind by (apply IHn; auto; lia). reflexivity.
Qed.

(** of the node at the head; the head itself stays as it was in [old] unless it
    is not a Struct *)
Definition filled_field (nodes : list fdesc) (old cells : list cell) : list cell :=
  if f_code (first_node nodes) =? tc_Struct then filled nodes old cells
  else match old, cells with
       | (vo, _) :: _, c :: _ => [(vo, recv_sto received (first_node nodes) (snd c))]
       | _, _ => []
       end.
Lemma kind_struct d s : kind_for d s -> f_code d = tc_Struct -> s = SNull.
Proof. intros K C. kinds K C. destruct s; try contradiction. reflexivity. Qed.
Lemma dec_field_in host be fuel nodes cells old : Forall is_good nodes -> lay nodes -> oks nodes cells -> kinds_for nodes old ->
  (forall c v m, In c cells -> (vsize v <= sto_size vsize (snd c))%nat -> good_type m -> v_nodes v = flatten m -> cells_ok v -> gets host be v) ->
  forall rest nrest crest ts, (length (enc_cells be cells nodes) < fuel)%nat ->
  run_flat (dec_field (dec_node fuel host) (nodes ++ nrest) (old ++ crest) ts) (inbuf (enc_cells be cells nodes ++ rest) be)
    = (DOK (filled_field nodes old cells ++ crest, ts), inbuf rest be).
Proof.
  intros G LY OK0 K IH rest nrest crest ts LE. pose proof (lay_length nodes LY) as LL. pose proof (lay_nonnil _ LY) as NN.
  destruct fuel as [|f]; [lia|]. pose proof OK0 as OK1. pose proof K as K1.
  destruct OK0 as [|d [vl s] nodes cells H1 H2]; [easy|]. inversion K as [|? [vo so] ? old' KH KT]; subst. inversion G as [|? ? G1 G2]; subst.
  unfold dec_field, filled_field. cbn [first_node hd app] in *. cbn [snd] in *.
  destruct (Z.eqb_spec (f_code d) tc_Struct) as [E|N].
  - rewrite (kind_struct d so KH E) in *. rewrite LL.
    change (d :: nodes ++ nrest) with ((d :: nodes) ++ nrest). change ((vo, SNull) :: old' ++ crest) with (((vo, SNull) :: old') ++ crest).
    apply dec_nodes_in; auto. lia.
  - assert (nodes = []) as ->.
    { inversion LY; subst; [reflexivity|contradiction]. }
    inversion H2; subst. inversion KT; subst. cbn [enc_cells app] in *. replace (f_code d =? tc_Struct) with false in * by lia.
    cbn [enc_cells] in *. rewrite app_nil_r in *.
    assert (R : run_flat (dbind (dec_node (S f) host d so ts) (fun r => pok ((vo, fst r) :: crest, snd r))) (inbuf (enc_sto (encv be) be d s ++ rest) be)
       = (DOK ((vo, recv_sto received d s) :: crest, ts), inbuf rest be)).
    { erewrite run_dbind.
      2:{ cbn [dec_node]. apply dec_node_in; auto; [|lia]. intros v m. apply (IH (vl, s)). now left. }
      reflexivity. }
    destruct so; exact R.
Qed.

Lemma received_cells nodes cells : received (Val nodes cells) =
  Val nodes ((fix go (cells : list (bool * sto value)) (ds : list fdesc) : list (bool * sto value) :=
            match cells, ds with
            | (_, s) :: cells', d :: ds' =>
                ((f_code (first_node nodes) =? tc_Struct) && negb (f_code d =? tc_Struct), recv_sto received d s)
                :: go cells' ds'
            | _, _ => []
            end) cells nodes).
Proof. reflexivity. Qed.
Lemma init_kinds nodes : Forall (fun d => sto_init (f_code d) = Some (init_sto d)) nodes ->
  kinds_for nodes (map (fun d => (false, init_sto d)) nodes).
Proof.
  induction 1 as [|d l H _ IH]; cbn [map]; constructor; auto. exists (init_sto d). split; [exact H|]. cbn [snd]. destruct (init_sto d); exact I.
Qed.
Lemma node_ok_struct d s : node_ok d s -> f_code d = tc_Struct -> s = SNull.
Proof.
  intros H E. destruct H as [d H|d x H|d x H|d n x H|d n x H|d b H|d x H|d H|d name i v H|d m v H|d H|d n l H|d l H|d l H|d l H];
  try reflexivity; exfalso; rewrite E in H; vm_compute in H; try discriminate; decompose [or] H; discriminate.
Qed.
Lemma filled_received m cells : describable m = true -> lay (flatten m) -> oks (flatten m) cells ->
  Val (flatten m) (filled_field (flatten m) (map (fun d => (false, init_sto d)) (flatten m)) cells) = received (Val (flatten m) cells).
Proof.
  intros D LY OK0. pose proof (nodes_init m D) as NI. rewrite received_cells. f_equal. unfold filled_field.
  destruct (Z.eqb_spec (f_code (first_node (flatten m))) tc_Struct) as [E|N].
  - revert OK0 NI. generalize (flatten m) as nodes. clear. induction nodes as [|d nodes IH] in cells |- *; intros OK0 NI.
    + inversion OK0; subst. reflexivity.
    + inversion OK0 as [|? [vl s] ? cells' H1 H2]; inversion NI as [|? ? NI1 NI2]; subst. cbn [map filled snd] in *.
      rewrite IH by auto. cbn [andb]. destruct (Z.eqb_spec (f_code d) tc_Struct) as [E|N]; cbn [negb]; [|reflexivity].
      rewrite (node_ok_struct d s H1 E). cbn [recv_sto]. unfold init_sto. rewrite E. reflexivity.
  - destruct (flatten_cons m) as (d & r & EF & _). rewrite EF in *. cbn [first_node hd] in *.
    inversion LY; subst; [|contradiction]. inversion OK0 as [|? [vl s] ? cells' H1x H2x]; subst. inversion H2x; subst. cbn [map andb snd].
    reflexivity.
Qed.

Lemma good_gets host be v : forall m, good_type m -> v_nodes v = flatten m -> cells_ok v -> gets host be v.
Proof.
  revert v. apply (value_strong_ind (fun v => forall m, good_type m -> v_nodes v = flatten m -> cells_ok v -> gets host be v)).
  intros [nodes cells] IH m G V U. cbn [v_nodes] in V. subst nodes. inversion U as [n c F]; subst.
  intros fuel rest ts LT. rewrite encv_eq in *. cbn [v_nodes]. unfold dec_new.
  pose proof (good_describable m G) as D. pose proof (good_sized m G) as S.
  destruct (value_new_spec m (flatten m) D) as [V1 _]; [reflexivity|]. rewrite (V1 S). cbn [v_nodes v_cells].
  pose proof (dec_field_in host be fuel (flatten m) cells (map (fun d => (false, init_sto d)) (flatten m))
    (flatten_good m G) (sized_lay m D S) F (init_kinds _ (nodes_init m D))) as K.
  rewrite !app_nil_r in K || idtac.
  erewrite run_dbind.
  2:{ specialize (K ltac:(intros c v m' I L G' V' C'; apply (IH v ltac:(pose proof (sum_sizes_In (fun c => sto_size vsize (snd c)) cells c I); cbn [vsize]; cbv beta in *; lia) m' G' V' C')) rest [] [] ts LT).
      rewrite !app_nil_r in K. exact K. }
  cbn [fst snd run_flat pok]. now rewrite filled_received by (auto; now apply sized_lay).
Qed.

(** from_wire_full() into any storage of the type *)
Lemma from_wire_full_in host be v m old fuel rest ts : value_of m v -> storage_for m old -> (length (encv be v) < fuel)%nat ->
  run_flat (from_wire_full fuel host old ts) (inbuf (encv be v ++ rest) be)
    = (DOK (Val (flatten m) (filled_field (flatten m) (v_cells old) (v_cells v)), ts), inbuf rest be).
Proof.
  intros (G & V & U) (S1 & S2) LT. destruct v as [nodes cells]. cbn [v_nodes v_cells] in *. subst nodes. inversion U as [n c F]; subst.
  pose proof (good_describable m G) as D. pose proof (good_sized m G) as S. rewrite encv_eq in *.
  pose proof (dec_field_in host be fuel (flatten m) cells (v_cells old) (flatten_good m G) (sized_lay m D S) F S2) as K.
  specialize (K ltac:(intros; eapply good_gets; eauto) rest [] [] ts LT). rewrite !app_nil_r in K.
  unfold from_wire_full. rewrite S1. erewrite run_dbind by exact K. reflexivity.
Qed.
