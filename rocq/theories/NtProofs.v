(** Proofs for the standard types. *)
From Coq Require Import String.
From Coq Require Import ZArith List Bool Lia ZifyBool ZifyNat.
From Verif Require Import Base BaseProofs WireModel TypeModel TypeSpec TypeProofs TypeNameProofs TypeProps LayoutProofs
  ValueModel ValueSpec ValueTypeProofs MarkModel MarkSpec MarkProofs FieldProofs CopyModel CopySpec CopyProofs CopyProps NtModel NtSpec.
Import ListNotations.
Local Open Scope Z_scope.

(** ** Deciding good_type *)
Definition no_dot_b (n : str) : bool := negb (existsb (Z.eqb dot) n).
Fixpoint no_dup_b (l : list str) : bool :=
  match l with [] => true | x :: l' => negb (existsb (str_eqb x) l') && no_dup_b l' end.
Fixpoint nice (m : member) : bool :=
  match m with
  | Mem code name id children =>
      forallb (fun c => no_dot_b (m_name c)) children && no_dup_b (map m_name children) && forallb nice children
  end.
Lemma no_dot_b_ok n : no_dot_b n = true -> no_dot n.
Proof.
  unfold no_dot_b, no_dot. rewrite negb_true_iff. intros H I. rewrite <- not_true_iff_false in H. apply H.
  apply existsb_exists. exists dot. split; [exact I|apply Z.eqb_refl].
Qed.
Lemma no_dup_b_ok l : no_dup_b l = true -> NoDup l.
Proof.
  induction l as [|x l IH]; cbn [no_dup_b]; [constructor|]. rewrite andb_true_iff, negb_true_iff. intros [A B]. constructor; [|auto].
  intro I. rewrite <- not_true_iff_false in A. apply A. apply existsb_exists. exists x. split; [exact I|now apply str_eqb_eq].
Qed.
Lemma nice_ok m : nice m = true -> all_names no_dot m /\ distinct_struct_names m.
Proof.
  induction m as [code name id cs IH] using member_ind'. cbn [nice]. rewrite !andb_true_iff, !forallb_Forall.
  intros [[A B] C]. rewrite Forall_forall in *. split.
  - apply all_names_children. apply Forall_forall. intros c I. split; [now apply no_dot_b_ok, A|]. now apply IH; auto.
  - apply distinct_children. split; [intros _; now apply no_dup_b_ok|]. apply Forall_forall. intros c I. now apply IH; auto.
Qed.
Lemma nice_good m : describable m && nice m = true -> good_type m.
Proof. rewrite andb_true_iff. intros [D N]. destruct (nice_ok m N). now repeat split. Qed.

(** ** Making a definition *)
Lemma make_ok m : member_built m = true -> fits_wire m = true -> all_names no_dot m ->
  (distinct_struct_names m -> typedef_make m = OK (flatten m) /\ good_type m) /\
  (~ distinct_struct_names m -> typedef_make m = Aborts).
Proof.
  intros B W A. pose proof (built_describable m B W) as D. pose proof (C53_rebuild m (describable_codes m D) A) as R.
  unfold typedef_make. rewrite B. cbn [negb]. split.
  - intro N. rewrite (proj2 R N). split; [reflexivity|]. now repeat split.
  - intro N. unfold build_tree in *. destruct (build_asserts m); [|reflexivity]. exfalso. apply N, R. reflexivity.
Qed.
Lemma make_inv m l : typedef_make m = OK l -> member_built m = true /\ l = flatten m.
Proof.
  unfold typedef_make, build_tree. destruct (member_built m); [|discriminate]. cbn [negb]. destruct (build_asserts m); [|discriminate].
  intro H. inversion H. auto.
Qed.
Lemma new_value m : good_type m -> value_new (flatten m) = DOK (Val (flatten m) (map (fun d => (false, init_sto d)) (flatten m))).
Proof.
  intro G. destruct G as (D & N & A) eqn:X. destruct (value_new_spec m (flatten m) D (fun _ _ => eq_refl)) as [H _]. apply H.
  now apply good_sized.
Qed.
Lemma fresh_cells m : good_type m ->
  Forall2 (fun d (x : cell) => fst x = false /\ initial d (snd x)) (flatten m) (map (fun d => (false, init_sto d)) (flatten m)).
Proof.
  intros (D & _). pose proof (nodes_init m D) as H. induction H as [|d l H HF IH]; cbn [map]; constructor; auto.
Qed.

(** ** Comparing layouts *)
Definition field_eqb (a b : field) : bool :=
  str_eqb (fst (fst a)) (fst (fst b)) && (snd (fst a) =? snd (fst b)) && str_eqb (snd a) (snd b).
Fixpoint fields_eqb (a b : list field) : bool :=
  match a, b with
  | [], [] => true
  | x :: a', y :: b' => field_eqb x y && fields_eqb a' b'
  | _, _ => false
  end.
Lemma fields_eqb_ok a : forall b, fields_eqb a b = true -> a = b.
Proof.
  induction a as [|x a IH]; intros [|y b]; cbn [fields_eqb]; try discriminate; [reflexivity|]. unfold field_eqb. rewrite !andb_true_iff.
  intros [[[E1 E2] E3] H]. destruct x as [[? ?] ?], y as [[? ?] ?]. cbn [fst snd] in *. apply str_eqb_eq in E1. apply str_eqb_eq in E3.
  apply Z.eqb_eq in E2. subst. f_equal. auto.
Qed.
Lemma among_ok l have : forallb (fun f => existsb (field_eqb f) have) l = true -> Forall (fun f => In f have) l.
Proof.
  rewrite forallb_forall. intro H. apply Forall_forall. intros f I. specialize (H f I). apply existsb_exists in H. destruct H as (y & J & E).
  assert (X : fields_eqb [f] [y] = true) by (cbn [fields_eqb]; now rewrite E). apply fields_eqb_ok in X. congruence.
Qed.
Definition laid_out_b (m : member) (id : str) (l : list field) : bool :=
  (m_code m =? tc_Struct) && str_eqb (m_id m) id && fields_eqb (fields_below [] m) l.
Lemma laid_out_b_ok m id l : laid_out_b m (bs id) l = true -> laid_out m id l.
Proof.
  unfold laid_out_b. rewrite !andb_true_iff. intros [[A B] C]. apply Z.eqb_eq in A. apply str_eqb_eq in B. apply fields_eqb_ok in C. now repeat split.
Qed.

(** ** Tables *)
Lemma add_columns_ok l : forall cols, Forall (fun r : request => 0 <= r_code r < 256) l ->
  (Forall (fun r => column_type (r_code r)) l ->
     add_columns l cols = Some (cols ++ map (fun r => {| c_code := tc_arrayOf (r_code r); c_name := r_name r; c_label := r_label r |}) l)) /\
  (~ Forall (fun r => column_type (r_code r)) l -> add_columns l cols = None).
Proof.
  assert (G : forall c, 0 <= c < 256 -> negb (tc_valid c) || tc_isarray c = negb (existsb (Z.eqb c) (primitives ++ [tc_Struct; tc_Union; tc_Any]))).
  { apply (byte_cases (fun c => negb (tc_valid c) || tc_isarray c = negb (existsb (Z.eqb c) (primitives ++ [tc_Struct; tc_Union; tc_Any])))).
    apply Forall_forall. intros c I.
    assert (X : forallb (fun c => Bool.eqb (negb (tc_valid c) || tc_isarray c) (negb (existsb (Z.eqb c) (primitives ++ [tc_Struct; tc_Union; tc_Any])))) (map Z.of_nat (seq 0 256)) = true) by (vm_compute; reflexivity).
    rewrite forallb_forall in X. apply eqb_prop. now apply X. }
  assert (G2 : forall c, existsb (Z.eqb c) (primitives ++ [tc_Struct; tc_Union; tc_Any]) = true <-> column_type c).
  { intro c. unfold column_type. rewrite existsb_exists. split.
    - intros (x & I & E). apply Z.eqb_eq in E. now subst.
    - intro I. exists c. split; [exact I|apply Z.eqb_refl]. }
  induction l as [|[[code name] label] l IH]; intros cols R.
  - split; [intros _; cbn; now rewrite app_nil_r|]. intro H. exfalso. apply H. constructor.
  - inversion R as [|? ? R1 R2]; subst. cbn [add_columns]. unfold add_column. unfold r_code in R1. cbn [fst] in R1. rewrite (G code R1).
    destruct (existsb (Z.eqb code) (primitives ++ [tc_Struct; tc_Union; tc_Any])) eqn:X; cbn [negb].
    + apply G2 in X. destruct (IH (cols ++ [{| c_code := tc_arrayOf code; c_name := name; c_label := match label with Some l0 => l0 | None => name end |}]) R2) as [IH1 IH2]. split.
      * intro F. inversion F; subst. rewrite IH1 by assumption. now rewrite <- app_assoc.
      * intro F. apply IH2. intro F2. apply F. constructor; [exact X|exact F2].
    + split; [|reflexivity]. intro F. inversion F as [|? ? F1 F2]; subst. apply G2 in F1. unfold r_code in F1. cbn [fst] in F1. congruence.
Qed.
