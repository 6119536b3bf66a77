(** Theorems on the lookup of fields by expression: C18, C75. *)
From Coq Require Import ZArith String List Bool Lia ZifyBool ZifyNat Sorted.
From Verif Require Import Base BaseProofs WireModel TypeModel TypeSpec TypeProofs TypeNameProofs TextModel
  ValueModel ValueSpec MarkSpec MarkProofs CopySpec LayoutProofs FieldProofs ValueTypeProofs ValueSafeProofs ValueRoundProofs
  CopyProofs LookupModel LookupSpec LookupProofs LookupProofs2 LookupProofs3.
Import ListNotations.
Local Open Scope Z_scope.

(** An expression finds a field exactly if it is the text of steps leading there:
    up to the parent, down to a named field, to a member of a Union, to what a
    Union or Any holds, to an element of an array. *)
Theorem C75_expression : forall modify v i expr v' hops j, api_value v -> (i < length (v_nodes v))%nat ->
  (finds modify v i expr v' (At hops j) <-> exists steps, text_of false steps = expr /\ walks modify v i steps v' hops j).
Proof.
  intros modify v i expr v' hops j V IB. split.
  - intros (_ & fuel & T). eapply walk_backward; eauto.
  - intros (steps & <- & W). split; [discriminate|]. exists (S (List.length (text_of false steps))). unfold lookup_expr.
    apply walk_forward; auto.
Qed.

(** Whatever the expression and the value (also one decoded from hostile input):
    the lookup ends, with one result, never in undefined behaviour; the value keeps
    its type and stays usable, and a position given is one of a field. *)
Theorem C75_total : forall modify v i expr, usable v -> (i < length (v_nodes v))%nat ->
  exists v' r, finds modify v i expr v' r /\ (forall v2 r2, finds modify v i expr v2 r2 -> v2 = v' /\ r2 = r) /\
    r <> TUB /\ usable v' /\ v_nodes v' = v_nodes v /\
    (forall hops j, r = At hops j -> exists w, inner v' hops w /\ usable w /\ (j < length (v_nodes w))%nat).
Proof.
  intros modify v i expr U IB.
  destruct (traverse_ends modify (List.length expr) expr (le_n _) (List.length (v_nodes v) - i)%nat true false v i U IB (le_n _)) as (fuel & F).
  pose proof (traverse_fine modify fuel true false expr v i U IB) as (F1 & F2 & F3 & F4).
  destruct (traverse fuel modify true false expr v i) as (v' & r) eqn:T. cbn [fst snd] in *. exists v', r.
  split; [split; [exact F|]; exists fuel; exact T|]. split.
  { intros v2 r2 (N2 & f2 & T2). destruct (traverse_unique _ _ _ _ _ _ _ _ _ _ _ _ N2 F T2 T). auto. }
  auto.
Qed.

(** What the caller gets: lookup() and operator[] find the same; when the steps
    lead nowhere lookup() throws and operator[] gives an empty Value, unless it
    throws, which it does only for expressions with an index. *)
Theorem C75_result_partial : forall modify v i expr v' r, api_value v -> (i < length (v_nodes v))%nat -> finds modify v i expr v' r ->
  (forall hops j dothrow, l_result dothrow r = LField hops j <-> exists steps, text_of false steps = expr /\ walks modify v i steps v' hops j) /\
  ((forall steps v2 hops j, text_of false steps = expr -> ~ walks modify v i steps v2 hops j) ->
     l_result true r = LThrow /\ (l_result false r = LEmpty \/ (l_result false r = LThrow /\ In 91 expr))).
Proof.
  intros modify v i expr v' r V IB F. pose proof (api_usable v V) as U.
  destruct (C75_total modify v i expr U IB) as (v2 & r2 & F2 & UQ & NUB & _). destruct (UQ _ _ F) as (-> & ->). clear F UQ.
  assert (EX : forall hops j, r2 = At hops j <-> exists steps, text_of false steps = expr /\ walks modify v i steps v2 hops j).
  { intros hops j. rewrite <- (C75_expression modify v i expr v2 hops j V IB). split; [now intros <-|]. intro F3.
    destruct (C75_total modify v i expr U IB) as (v4 & r4 & F4 & UQ & _). destruct (UQ _ _ F3) as (_ & ->). destruct (UQ _ _ F2) as (_ & ->). reflexivity. }
  split.
  - intros hops j dothrow. rewrite <- EX. destruct r2; cbn [l_result]; try (split; intro H; discriminate H).
    + split; intro H; injection H as <- <-; reflexivity.
    + destruct dothrow; split; intro H; discriminate H.
  - intro NW. destruct F2 as (NF & fuel & T). destruct r2 as [hops j| | | |]; cbn [l_result]; try easy.
    + destruct (proj1 (EX hops j) eq_refl) as (steps & E & W). exfalso. exact (NW _ _ _ _ E W).
    + split; [reflexivity|now left].
    + split; [reflexivity|]. right. split; [reflexivity|]. eapply threw_bracket; eauto.
Qed.

(** A lookup through a const Value changes nothing. *)
Theorem C75_const : forall v i expr v' r, finds false v i expr v' r -> v' = v.
Proof. intros v i expr v' r (_ & fuel & T). pose proof (traverse_const fuel true false expr v i) as C. unfold lookup_expr in T. now rewrite T in C. Qed.

(** Any lookup leaves all marks as they are, and the content of all fields but
    one Union, Any or array of these. *)
Theorem C75_untouched : forall modify v i expr v' r, finds modify v i expr v' r ->
  map fst (v_cells v') = map fst (v_cells v) /\
  exists k, forall k', nth_error (v_cells v') k' = nth_error (v_cells v) k' \/
    (k' = k /\ exists d, nth_error (v_nodes v) k = Some d /\
       (f_code d = tc_Union \/ f_code d = tc_Any \/ (tc_isarray (f_code d) = true /\ tc_compound (f_code d) = true))).
Proof.
  intros modify v i expr v' r (_ & fuel & T). pose proof (traverse_one modify fuel true false expr v i) as O. unfold lookup_expr in T. rewrite T in O.
  destruct O as [E|(k & s & d & E & ND & C)]; cbn [fst] in E; subst v'.
  - split; [reflexivity|]. exists 0%nat. now left.
  - split; [apply with_sto_marks|]. exists k. intro k'. destruct (Nat.eq_dec k' k) as [->|N]; [right|left; now apply with_sto_other].
    split; [reflexivity|]. exists d. split; [exact ND|]. destruct C as [C|[C|C]]; auto. right. right. lia.
Qed.

Lemma find_gone modify v i d b st c s' : nth_error (v_nodes v) i = Some d -> nth_error (v_cells v) i = Some (b, st) -> (c =? c_up) = false ->
  f_code d = tc_Struct -> map_get (fst (cut_at stop_struct (c :: s'))) (f_lookup d) = None -> finds modify v i (c :: s') v Gone.
Proof.
  intros ND HC CU CS MG. split; [discriminate|]. exists 1%nat. unfold lookup_expr. cbn [traverse]. rewrite ND, HC, CU, CS.
  change (tc_Struct =? tc_Struct) with true. cbn [andb]. cbv iota. destruct (cut_at stop_struct (c :: s')) as (name & rest). cbn [fst] in MG. rewrite MG.
  cbn [andb]. destruct (is_nil name); reflexivity.
Qed.

(** A dotted name, looked up in a structure, finds the field at that path if
    there is one and nothing else if there is none; nothing is changed. *)
Theorem C18_dotted : forall modify v m i d path, api_value v -> v_nodes v = flatten m -> api_type m -> struct_at m i d ->
  path <> [] -> Forall identifier path ->
  (forall k c, field_at d path k c -> finds modify v i (join path) v (At [] (i + k))) /\
  ((forall k c, ~ field_at d path k c) -> finds modify v i (join path) v Gone).
Proof.
  intros modify v m i d path V NV T S PN PI.
  destruct (struct_at_nodes m i d (proj1 T) S) as (GD & (nd & HI & C & LK) & _ & B & _).
  assert (IB : (i < List.length (v_nodes v))%nat) by (rewrite NV; apply nth_error_Some; congruence). split.
  - intros k c F. apply C75_expression; auto. exists [Down path]. split; [cbn [text_of app]; apply app_nil_r|].
    econstructor; eauto. constructor.
  - intro NF. rewrite <- NV in HI. destruct (api_cell_ex v i nd V HI) as (b & s & HC).
    destruct path as [|n path]; [easy|]. destruct (join_first n path ltac:(inversion PI; assumption)) as (ch & tl & EJ & ST & _ & DT).
    pose proof (cut_at_app stop_struct (join (n :: path)) [] (join_free _ PI) I) as CUT. rewrite app_nil_r in CUT.
    rewrite EJ in *. eapply find_gone; eauto; [unfold stop_struct in ST; lia|]. rewrite CUT. cbn [fst]. rewrite LK.
    destruct (map_get (ch :: tl) (lookup_of d)) as [k|] eqn:MG; [|reflexivity]. exfalso.
    destruct (lookup_field_only d _ k (proj1 S) MG) as (path' & fd & EN & F). pose proof (struct_at_api _ _ _ T S) as TD.
    destruct (field_path _ _ _ _ TD F) as (PN' & PI'). rewrite <- EJ in EN.
    assert (ND : forall p, Forall identifier p -> Forall no_dot p).
    { intros p. apply Forall_impl. intros x X. intro IX. apply ident_all in X. rewrite Forall_forall in X. specialize (X _ IX).
      apply letter_plain in X. destruct X as (_ & _ & X). discriminate X. }
    apply join_inj in EN; auto. subst path'. exact (NF k fd F).
Qed.

(** "<" returns to the structure a field is a member of; at the root it fails. *)
Theorem C18_parent : forall modify v p i, api_value v -> is_member (v_nodes v) p i -> finds modify v i (bs "<") v (At [] p).
Proof.
  intros modify v p i V M. destruct (api_type_of v V) as (m & (G & _) & NV & _).
  assert (LY : lay (v_nodes v)) by (rewrite NV; now apply good_lay). destruct (member_range _ _ _ LY M) as (? & ? & _ & HI & _).
  apply C75_expression; [exact V|apply nth_error_Some; congruence|]. exists [Up]. split; [reflexivity|]. econstructor; eauto. constructor.
Qed.
Theorem C18_root : forall modify v rest, usable v -> finds modify v 0 (60 :: rest) v Gone.
Proof.
  intros modify v rest U. split; [discriminate|]. exists 1%nat. unfold lookup_expr. cbn [traverse].
  destruct (usable_type v U) as (m & D & SZ & NV & L). pose proof (usable_nonempty v U) as P.
  destruct (nth_error (v_nodes v) 0) as [d|] eqn:ND; [|apply nth_error_None in ND; lia].
  destruct (nth_error (v_cells v) 0) as [(b & st)|] eqn:HC; [reflexivity|apply nth_error_None in HC; lia].
Qed.
(** Each field but the root is a member of some structure. *)
Theorem C18_has_parent : forall v i, api_value v -> (1 <= i < length (v_nodes v))%nat -> exists p, is_member (v_nodes v) p i.
Proof.
  intros v i V B. destruct (api_type_of v V) as (m & (G & _) & NV & _). assert (LY : lay (v_nodes v)) by (rewrite NV; now apply good_lay).
  destruct (nth_error (v_nodes v) i) as [d|] eqn:ND; [|apply nth_error_None in ND; lia].
  destruct (lay_parent _ _ _ LY ND ltac:(lia)) as (p & M & _). eauto.
Qed.

(** nameOf() in a structure: a name, which looks up to the very field, for all
    fields inside of it; an exception for others. *)
Theorem C18_name_of : forall modify v m i d nd k, api_value v -> v_nodes v = flatten m -> api_type m -> struct_at m i d ->
  nth_error (v_nodes v) i = Some nd ->
  ((1 <= k < nfields d)%nat -> exists n, name_of_node nd k = Some n /\ finds modify v i n v (At [] (i + k))) /\
  (~ (1 <= k < nfields d)%nat -> name_of_node nd k = None).
Proof.
  intros modify v m i d nd k V NV T S ND. pose proof (struct_at_api _ _ _ T S) as TD.
  destruct (struct_at_nodes m i d (proj1 T) S) as (GD & (nd' & HI & C & LK) & _ & B & _). rewrite <- NV, ND in HI. injection HI as <-.
  unfold name_of_node. rewrite C. change (tc_Struct =? tc_Struct) with true. cbv iota. rewrite LK, (lookup_length d GD (proj1 S)). split; intro K.
  - destruct (field_at_total d k K) as (path & c & F). destruct (field_path _ _ _ _ TD F) as (PN & PI).
    destruct (name_of_ok d nd k GD (proj1 S) LK K) as (n & N & MG). unfold CopyModel.name_of in N. rewrite LK, (lookup_length d GD (proj1 S)) in N.
    replace (k =? 0)%nat with false in * by lia. replace (nfields d - 1 <? k)%nat with false in * by lia. cbn [orb] in *.
    exists n. split; [destruct (find _ (lookup_of d)) as [(x & y)|]; [cbn; congruence|discriminate]|].
    destruct (lookup_field_only d n k (proj1 S) MG) as (path' & c' & -> & F').
    destruct (field_path _ _ _ _ TD F') as (PN' & PI'). exact (proj1 (C18_dotted modify v m i d path' V NV T S PN' PI') k c' F').
  - replace ((k =? 0)%nat || (nfields d - 1 <? k)%nat) with true by (pose proof (nfields_pos d); lia). reflexivity.
Qed.
(** nameOf() in a Union: the name of the member. *)
Theorem C18_name_of_union : forall v i nd n k, api_value v -> nth_error (v_nodes v) i = Some nd -> f_code nd = tc_Union ->
  union_member nd n k -> name_of_node nd k = Some n.
Proof.
  intros v i nd n k V ND C U. destruct (api_type_of v V) as (m & T & NV & _).
  assert (AN : api_node nd).
  { pose proof (flatten_api m T) as FA. rewrite Forall_forall in FA. apply FA. rewrite <- NV. eapply nth_error_In; eauto. }
  assert (SO : NoDup (map snd (f_iter nd)) /\ NoDup (keys (f_lookup nd))).
  { destruct AN as (m' & _ & N). pose proof (node_code m' nd N) as E. destruct m' as [code nm id cs]. cbn [m_code] in E. rewrite C in E. subst code.
    destruct N as (p & rest & E). rewrite flatten_eq in E. change (is_array_of_compound tc_Union) with false in E. cbv iota in E.
    rewrite flatten_plain_eq in E. change (tc_Union =? tc_Struct) with false in E. cbv iota zeta in E. cbn [set_parent] in E.
    inversion E. cbn [f_iter f_lookup]. split; [apply ss_NoDup, (proj1 (iter_from_sorted cs _))|].
    apply sorted_NoDup, look_from_sorted, sorted_nil. }
  destruct SO as (SO & KO). unfold name_of_node. rewrite C. change (tc_Union =? tc_Struct) with false. change (tc_Union =? tc_Union) with true. cbv iota.
  pose proof (proj2 (union_some nd n k AN C) U) as MG. apply (map_get_In _ _ _ KO) in MG.
  destruct (find (fun p => Nat.eqb (snd p) k) (f_lookup nd)) as [(n' & k')|] eqn:FI.
  - apply find_some in FI. destruct FI as (I1 & I2). cbn [snd] in I2. apply Nat.eqb_eq in I2. subst k'. cbn [option_map fst]. f_equal.
    apply (map_get_In _ _ _ KO) in I1. apply (union_some nd n' k AN C) in I1. apply union_member_In in I1. apply union_member_In in U.
    revert SO I1 U. generalize (f_iter nd). intros l SO I1 U. induction l as [|(a & b) l IH]; [contradiction|].
    cbn [map snd] in SO. inversion SO as [|? ? X Y]; subst. destruct I1 as [I1|I1], U as [U|U]; auto; try congruence.
    + exfalso. injection I1 as -> ->. apply X. apply (in_map snd) in U. exact U.
    + exfalso. injection U as -> ->. apply X. apply (in_map snd) in I1. exact I1.
  - exfalso. pose proof (find_none _ _ FI _ MG) as X. cbn in X. now rewrite Nat.eqb_refl in X.
Qed.

(** ** Examples and refuted claims *)
Definition lk_b : member := Mem tc_Struct (bs "b") [] [Mem tc_Int32 (bs "x") [] []].
Definition lk_elem : member := Mem tc_Struct (bs "a") [] [Mem tc_Int32 (bs "y") [] []].
Definition lk_u : member := Mem tc_Union (bs "u") [] [lk_b; Mem tc_String (bs "c") [] []].
Definition lk_x : member := Mem tc_Int32 (bs "x") [] [].
Definition lk_type : member := Mem tc_Struct [] []
  [ lk_u;
    Mem tc_StructA (bs "a") [] [Mem tc_Int32 (bs "y") [] []] ].
Ltac ident := match goal with |- identifier ?n => change (identifier (c_str n)); apply name_validate_identifier; reflexivity end.
Ltac nodot := let H := fresh in intros H; cbn in H; unfold dot in H; repeat (destruct H as [H|H]; [discriminate H|]); exact H.
Ltac apity := split; [split; [reflexivity|split; [cbn [distinct_struct_names m_children fold_right map m_name lk_b lk_u]; repeat split; intros; repeat constructor; cbn; intuition discriminate|
  cbn [all_names m_children fold_right m_name lk_b lk_u]; repeat split; nodot]]|cbn [all_names m_children fold_right m_name lk_b lk_u]; repeat split; ident].
Lemma lk_b_api : api_type lk_b. Proof. apity. Qed.
Lemma lk_elem_api : api_type lk_elem. Proof. apity. Qed.
Lemma lk_type_api : api_type lk_type. Proof. apity. Qed.
Definition lk_y (z : Z) : value := Val (flatten lk_elem) [(false, SNull); (true, SInt z)].
Definition lk_value : value := Val (flatten lk_type)
  [ (false, SNull); (true, SSel (Some (2%nat, Val (flatten (Mem tc_String (bs "c") [] [])) [(false, SStr (bs "hi"))])));
    (false, SArr (AVals [None; Some (lk_y 5)])) ].
Lemma lk_y_api z : signed_in 4 z -> api_value (lk_y z).
Proof.
  intro R. unfold lk_y. constructor; [exact lk_elem_api|].
  change (flatten lk_elem) with [nth 0 (flatten lk_elem) (fd_new 0); nth 1 (flatten lk_elem) (fd_new 0)].
  repeat constructor; cbn [snd]. eapply ok_int; [reflexivity|exact R].
Qed.
Lemma lk_value_api : api_value lk_value.
Proof.
  constructor; [exact lk_type_api|].
  change (flatten lk_type) with [nth 0 (flatten lk_type) (fd_new 0); nth 1 (flatten lk_type) (fd_new 0); nth 2 (flatten lk_type) (fd_new 0)].
  assert (SC : api_value (Val (flatten (Mem tc_String (bs "c") [] [])) [(false, SStr (bs "hi"))])).
  { constructor; [split; [split; [reflexivity|split; [cbn; split; [intro H; discriminate H|exact I]|exact I]]|exact I]|].
    constructor; [|constructor]. split; [apply ok_str; [reflexivity|vm_compute; discriminate]|now apply api_plain]. }
  constructor; [split; [now apply ok_struct|now apply api_plain]|].
  constructor; [split|].
  - cbn [snd]. apply (ok_union _ (bs "c")); [reflexivity| |reflexivity|].
    + right. now left.
    + constructor. constructor; [|constructor]. apply ok_str; [reflexivity|vm_compute; discriminate].
  - cbn [snd]. now apply api_sel.
  - constructor; [|constructor]. split; cbn [snd].
    + apply ok_elems; [now left|unfold fits32, zlen; cbn; lia|]. constructor; [discriminate|]. constructor; [|constructor].
      intros v E. injection E as <-. split; [reflexivity|]. unfold lk_y. constructor.
      change (flatten lk_elem) with [nth 0 (flatten lk_elem) (fd_new 0); nth 1 (flatten lk_elem) (fd_new 0)].
      constructor; [now apply ok_struct|]. constructor; [|constructor]. eapply ok_int; [reflexivity|]. unfold signed_in. cbn. lia.
    + apply api_vals. constructor; [discriminate|]. constructor; [|constructor]. intros v E. injection E as <-. apply lk_y_api. unfold signed_in. cbn. lia.
Qed.
Ltac run := split; [discriminate|exists 20%nat; vm_compute; reflexivity].

(** u->c of a const Value, a[1].y, and selecting another member *)
Example C75_ex : api_value lk_value /\ finds false lk_value 0 (bs "u->c") lk_value (At [(1%nat, 0%nat)] 0) /\
  finds false lk_value 0 (bs "a[1].y") lk_value (At [(2%nat, 1%nat)] 1) /\
  finds false lk_value 0 (bs "u->b.x") lk_value Gone /\ finds false lk_value 2 (bs "<u") lk_value (At [] 1) /\
  finds true lk_value 0 (bs "u->b.x")
    (Val (flatten lk_type) [ (false, SNull); (true, SSel (Some (0%nat, Val (flatten lk_b) [(false, SNull); (false, SInt 0)])));
       (false, SArr (AVals [None; Some (lk_y 5)])) ]) (At [(1%nat, 0%nat)] 1).
Proof. split; [exact lk_value_api|]. repeat match goal with |- _ /\ _ => split end; run. Qed.
Example C18_dotted_ex : exists d, struct_at lk_type 0 d /\ field_at d [bs "u"] 1 lk_u.
Proof. exists lk_type. split; [split; [reflexivity|now left]|]. eapply (fa_child lk_type [] lk_u); reflexivity. Qed.
Example C75_walks_ex : exists v', walks true lk_value 0 [Down [bs "u"]; Sel (bs "b"); Down [bs "x"]] v' [(1%nat, 0%nat)] 1 /\
  text_of false [Down [bs "u"]; Sel (bs "b"); Down [bs "x"]] = bs "u->b.x".
Proof.
  eexists. split; [|reflexivity].
  eapply (w_down _ _ lk_type 0 lk_type [bs "u"] 1 lk_u); [reflexivity|exact lk_type_api|split; [reflexivity|now left]| |exact (fun x => x)|].
  { eapply (fa_child lk_type [] lk_u); reflexivity. }
  change (0 + 1)%nat with (List.length [(false, @SNull value)]).
  eapply (w_select _ _ [(false, SNull)]) with (k := 0%nat) (w := Val (flatten lk_b) [(false, SNull); (false, SInt 0)]);
    [reflexivity|reflexivity|reflexivity| |ident| |reflexivity| |].
  - exists [], [(bs "c", 2%nat)]. split; [reflexivity|]. cbn. intros [H|[]]. discriminate H.
  - intros x H. discriminate H.
  - unfold fresh. repeat constructor.
  - eapply (w_down _ _ lk_b 0 lk_b [bs "x"] 1 lk_x); [reflexivity|exact lk_b_api|split; [reflexivity|now left]| |exact (fun x => x)|constructor].
    eapply (fa_child lk_b [] lk_x); reflexivity.
Qed.

(** operator[] is documented to return an empty Value when there is no such field;
    an index which is not a number makes it throw. *)
Theorem C75_index_refuted : exists v expr r, api_value v /\ finds false v 0 expr v r /\ l_result false r = LThrow.
Proof. exists lk_value, (bs "a[x]"), Threw. split; [exact lk_value_api|]. split; [run|reflexivity]. Qed.
(** A lookup which fails may still have selected another member of a Union and
    discarded what it held. *)
Theorem C75_failed_lookup_refuted : exists v expr v', api_value v /\ finds true v 0 expr v' Gone /\
  nth_error (v_cells v') 1 <> nth_error (v_cells v) 1.
Proof.
  exists lk_value, (bs "u->b.nosuch"),
    (Val (flatten lk_type) [ (false, SNull); (true, SSel (Some (0%nat, Val (flatten lk_b) [(false, SNull); (false, SInt 0)])));
       (false, SArr (AVals [None; Some (lk_y 5)])) ]).
  split; [exact lk_value_api|]. split; [run|]. cbn. discriminate.
Qed.
(** "<" does not lead from a member of a Union back to the Union. *)
Theorem C75_leave_union_refuted : exists v expr, api_value v /\ finds false v 0 expr v (At [(1%nat, 0%nat)] 0) /\
  finds false v 0 (expr ++ bs "<") v Gone.
Proof. exists lk_value, (bs "u->c"). split; [exact lk_value_api|]. split; run. Qed.

Print Assumptions C75_expression.
Print Assumptions C75_total.
Print Assumptions C75_const.
Print Assumptions C75_untouched.
Print Assumptions C18_dotted.
Print Assumptions C18_parent.
Print Assumptions C18_root.
Print Assumptions C18_has_parent.
Print Assumptions C18_name_of.
Print Assumptions C18_name_of_union.
Print Assumptions C75_index_refuted.
Print Assumptions C75_failed_lookup_refuted.
Print Assumptions C75_leave_union_refuted.
Print Assumptions C75_result_partial.
