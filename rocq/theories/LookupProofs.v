(** Proofs on the lookup of fields by expression. *)
From Coq Require Import ZArith List Bool Lia ZifyBool ZifyNat.
From Verif Require Import Base BaseProofs WireModel TypeModel TypeSpec TypeProofs TypeNameProofs TextModel
  ValueModel ValueSpec MarkSpec CopySpec LayoutProofs FieldProofs ValueTypeProofs ValueSafeProofs ValueRoundProofs
  CopyProofs LookupModel LookupSpec.
Import ListNotations.
Local Open Scope Z_scope.

(** ** text *)
Definition free (stop : Z -> bool) (n : str) : Prop := Forall (fun c => stop c = false) n.
Definition stops (stop : Z -> bool) (r : str) : Prop := match r with [] => True | c :: _ => stop c = true end.
Lemma cut_at_app stop n r : free stop n -> stops stop r -> cut_at stop (n ++ r) = (n, r).
Proof.
  intros F S. induction F as [|c n H _ IH]; cbn [app cut_at].
  - destruct r as [|c r]; [reflexivity|]. cbn [cut_at]. cbn [stops] in S. now rewrite S.
  - now rewrite H, IH.
Qed.
Lemma cut_at_spec stop s a b : cut_at stop s = (a, b) -> s = a ++ b /\ free stop a /\ stops stop b.
Proof.
  revert a b. induction s as [|c s IH]; intros a b; cbn [cut_at].
  - intro H. injection H as <- <-. repeat split. constructor.
  - destruct (stop c) eqn:E.
    + intro H. injection H as <- <-. repeat split; [constructor|exact E].
    + destruct (cut_at stop s) as (x & y) eqn:C. intro H. injection H as <- <-. destruct (IH _ _ eq_refl) as (-> & F & S).
      repeat split; [constructor; auto|exact S].
Qed.

Lemma letter_plain c : is_letter c \/ is_digit c -> stop_struct c = false /\ stop_union c = false /\ (c =? dot) = false.
Proof. unfold is_letter, is_digit, stop_union, stop_struct, c_up, c_open, c_minus, dot. lia. Qed.
Lemma ident_all n : identifier n -> Forall (fun c => is_letter c \/ is_digit c) n.
Proof. intros (c & r & -> & L & F). constructor; auto. Qed.
Lemma ident_free_union n : identifier n -> free stop_union n.
Proof. intro I. eapply Forall_impl; [|exact (ident_all n I)]. intros c H. apply letter_plain in H. tauto. Qed.
Lemma ident_free_struct n : identifier n -> free stop_struct n.
Proof. intro I. eapply Forall_impl; [|exact (ident_all n I)]. intros c H. apply letter_plain in H. tauto. Qed.
Lemma ident_first n : identifier n -> exists c r, n = c :: r /\ stop_struct c = false /\ stop_union c = false /\ (c =? dot) = false.
Proof. intros (c & r & -> & L & F). exists c, r. split; [reflexivity|]. apply letter_plain. auto. Qed.
Lemma join_first n p : identifier n -> exists c r, join (n :: p) = c :: r /\ stop_struct c = false /\ stop_union c = false /\ (c =? dot) = false.
Proof.
  intro I. destruct (ident_first n I) as (c & r & -> & H). destruct p as [|x p]; cbn [join app]; eauto.
Qed.
Lemma join_free path : Forall identifier path -> free stop_struct (join path).
Proof.
  induction path as [|n path IH]; intro F; [constructor|]. inversion F as [|? ? A B]; subst. cbn [join].
  destruct path as [|x path]; [now apply ident_free_struct|]. apply Forall_app. split; [now apply ident_free_struct|].
  constructor; [reflexivity|]. now apply IH.
Qed.
Lemma join_cut_union n p r : identifier n -> stops stop_union r -> cut_at stop_union (join (n :: p) ++ r) =
  (n, match p with [] => r | _ => dot :: join p ++ r end).
Proof.
  intros I S. destruct p as [|x p].
  - cbn [join]. apply cut_at_app; [now apply ident_free_union|exact S].
  - change (join (n :: x :: p)) with (n ++ dot :: join (x :: p)). rewrite <- app_assoc. cbn [app].
    apply cut_at_app; [now apply ident_free_union|reflexivity].
Qed.
Lemma stops_weaker r : stops stop_struct r -> stops stop_union r.
Proof. destruct r; [easy|]. cbn [stops]. unfold stop_union. intros ->. reflexivity. Qed.

(** ** types made with the API *)
Lemma api_hereditary code name id cs : api_type (Mem code name id cs) -> Forall api_type cs.
Proof.
  intros (G & A). apply good_hereditary in G. apply all_names_children in A. rewrite Forall_forall in G. apply Forall_forall.
  intros c I. split; [now apply G|]. rewrite Forall_forall in A. now apply A.
Qed.
Definition api_node (d : fdesc) : Prop := exists m, api_type m /\ is_node m d.
Lemma flatten_api m : api_type m -> Forall api_node (flatten m).
Proof.
  intro D. apply Forall_forall. intros d I. destruct (flatten_nodes api_type api_hereditary m D d I) as (m' & D' & N). now exists m'.
Qed.
Lemma look_from_union cs : forall off lk k,
  map_get k (look_from false off cs lk) = match get_last k (iter_from off cs) with Some x => Some x | None => map_get k lk end.
Proof.
  induction cs as [|c cs IH]; intros off lk k; cbn [look_from iter_from get_last]; [reflexivity|].
  rewrite IH. destruct (get_last k (iter_from _ cs)); [reflexivity|]. unfold look_child. cbn [andb]. rewrite map_get_set.
  destruct (str_eqb k (m_name c)); reflexivity.
Qed.
Lemma union_lookup d k : is_typed d -> f_code d = tc_Union -> map_get k (f_lookup d) = get_last k (f_iter d).
Proof.
  intros (m & D & N) C. pose proof (node_code m d N) as E. destruct m as [code nm id cs]. cbn [m_code] in E. rewrite C in E. subst code.
  destruct N as (p & rest & E). rewrite flatten_eq in E. change (is_array_of_compound tc_Union) with false in E. cbv iota in E.
  rewrite flatten_plain_eq in E. change (tc_Union =? tc_Struct) with false in E. cbv iota zeta in E. cbn [set_parent] in E.
  inversion E. cbn [f_lookup f_iter]. rewrite look_from_union. now destruct (get_last k _).
Qed.
Lemma get_last_member d n k : get_last n (f_iter d) = Some k <-> union_member d n k.
Proof.
  unfold union_member. split.
  - induction (f_iter d) as [|(n' & k') l IH]; cbn [get_last]; [discriminate|]. destruct (get_last n l) as [x|] eqn:G.
    + intro H. destruct (IH H) as (b & a & -> & N). now exists ((n', k') :: b), a.
    + destruct (str_eqb n n') eqn:E; [|discriminate]. apply str_eqb_eq in E. subst n'. intro H. injection H as ->.
      exists [], l. split; [reflexivity|]. now apply get_last_None.
  - intros (b & a & -> & N). rewrite get_last_app. cbn [get_last].
    replace (get_last n a) with (@None nat) by (symmetry; now apply get_last_None). now rewrite str_eqb_refl.
Qed.
Lemma api_typed d : api_node d -> is_typed d.
Proof. intros (m & (G & _) & N). exists m. split; [now apply good_describable|exact N]. Qed.
Lemma api_union d i name : api_node d -> f_code d = tc_Union -> In (name, i) (f_iter d) ->
  identifier name /\ exists c, api_type c /\ sub_desc i (f_members d) = flatten c.
Proof.
  intros (m & G & N) C I. pose proof (node_code m d N) as E. destruct m as [code nm id cs]. cbn [m_code] in E. rewrite C in E. subst code.
  pose proof (api_hereditary _ _ _ _ G) as GC. rewrite Forall_forall in GC. destruct G as (G & A).
  destruct (union_sub nm id cs d name i (good_describable _ G) N I) as (c & IC & NM & D & S).
  apply all_names_children in A. rewrite Forall_forall in A. split; [rewrite <- NM; now apply A|].
  exists c. split; [now apply GC|]. rewrite S. apply sized_firstn, good_sized. now apply GC.
Qed.
Lemma field_path m path i d : api_type m -> field_at m path i d -> path <> [] /\ Forall identifier path.
Proof.
  intros (_ & A) F. induction F as [m pre c post E K|m pre c post path j d E K EC F IH];
    destruct m as [code nm id cs]; cbn [m_children] in K; subst cs; apply all_names_children in A; rewrite Forall_forall in A;
    destruct (A c ltac:(apply in_or_app; right; now left)) as (A1 & A2).
  - split; [discriminate|]. repeat constructor. exact A1.
  - split; [discriminate|]. constructor; [exact A1|]. now apply IH.
Qed.
Lemma struct_at_api m i d : api_type m -> struct_at m i d -> api_type d.
Proof.
  intros (G & A) (S & [(-> & ->)|(path & F)]); [now split|]. split; [eapply field_at_good; eauto|eapply field_at_names; eauto].
Qed.
Lemma struct_at_total m i nd : good_type m -> nth_error (flatten m) i = Some nd -> f_code nd = tc_Struct ->
  exists d, struct_at m i d /\ f_lookup nd = lookup_of d.
Proof.
  intros G E C. destruct i as [|i].
  - exists m. pose proof (flatten_hd_code m) as H. unfold lookup_of. destruct (flatten m) as [|x r]; [discriminate|]. cbn in *. injection E as ->.
    split; [|reflexivity]. split; [congruence|now left].
  - assert (L : (1 <= S i < nfields m)%nat).
    { rewrite nfields_flatten. split; [lia|]. apply nth_error_Some. now rewrite E. }
    destruct (field_at_total m (S i) L) as (path & d & F).
    destruct (located_node m (S i) d (field_at_located _ _ _ _ F)) as (nd' & E' & C' & LK & _). rewrite E in E'. injection E' as <-.
    exists d. split; [|exact LK]. split; [congruence|]. right. now exists path.
Qed.

(** ** values made with the API *)
Lemma Forall2_nth {A B} (R : A -> B -> Prop) l l' i a b : Forall2 R l l' -> nth_error l i = Some a -> nth_error l' i = Some b -> R a b.
Proof.
  intro F. revert i. induction F as [|x y l l' H F IH]; intros [|i] E E'; try discriminate; cbn in E, E'.
  - now injection E as ->; injection E' as ->.
  - eauto.
Qed.
Lemma Forall2_len {A B} (R : A -> B -> Prop) l l' : Forall2 R l l' -> length l = length l'.
Proof. induction 1; cbn; congruence. Qed.
Lemma api_type_of v : api_value v -> exists m, api_type m /\ v_nodes v = flatten m /\ length (v_cells v) = length (v_nodes v).
Proof. intros [m cells T F]. exists m. cbn. split; [exact T|]. split; [reflexivity|]. symmetry. exact (Forall2_len _ _ _ F). Qed.
Lemma api_cell v i d b s : api_value v -> nth_error (v_nodes v) i = Some d -> nth_error (v_cells v) i = Some (b, s) ->
  api_node d /\ node_ok d s /\ api_sto s.
Proof.
  intros [m cells T F] E E'. cbn in *. destruct (Forall2_nth _ _ _ _ _ _ F E E') as (A & B).
  split; [|split; assumption]. pose proof (flatten_api m T) as FA. rewrite Forall_forall in FA. apply FA. eapply nth_error_In; eauto.
Qed.
Lemma api_cell_ex v i d : api_value v -> nth_error (v_nodes v) i = Some d -> exists b s, nth_error (v_cells v) i = Some (b, s).
Proof.
  intros V E. destruct (api_type_of v V) as (m & _ & _ & L). destruct (nth_error (v_cells v) i) as [(b & s)|] eqn:X; [eauto|].
  apply nth_error_None in X. assert (i < length (v_nodes v))%nat by (apply nth_error_Some; congruence). lia.
Qed.
Lemma api_sto_sel k w : api_sto (SSel (Some (k, w))) -> api_value w.
Proof. intro H. inversion H; subst; [assumption|contradiction]. Qed.
Lemma api_sto_vals l w : api_sto (SArr (AVals l)) -> In (Some w) l -> api_value w.
Proof. intro H. inversion H as [|? F|? X]; subst; [|contradiction]. intro I. rewrite Forall_forall in F. exact (F _ I w eq_refl). Qed.

Lemma fresh_unique w w' : v_nodes w = v_nodes w' -> fresh w -> fresh w' -> w = w'.
Proof.
  destruct w as [n c], w' as [n' c']. cbn. intros <- F F'. f_equal. unfold fresh in *. cbn in *. revert c' F'.
  induction F as [|d (b & s) n c (H & B) F IH]; intros c' F'; inversion F' as [|? (b' & s') ? c1 (H' & B') F1]; subst; [reflexivity|].
  cbn in *. subst b b'. f_equal; [|now apply IH]. unfold initial in *. congruence.
Qed.
Lemma value_new_fresh c : good_type c -> exists w, value_new (flatten c) = DOK w /\ v_nodes w = flatten c /\ fresh w.
Proof.
  intro G. destruct (value_new_spec c (flatten c) (good_describable _ G)) as (V & _); [reflexivity|]. specialize (V (good_sized _ G)).
  eexists. split; [exact V|]. split; [reflexivity|]. unfold fresh. cbn.
  pose proof (nodes_init c (good_describable _ G)) as NI. clear - NI. induction NI as [|d l H _ IH]; cbn [map]; constructor; auto.
Qed.
Lemma init_node_ok d : is_typed d -> forall s, sto_init (f_code d) = Some s -> node_ok d s /\ api_sto s.
Proof.
  intros T s E. pose proof (init_storable d T) as S. unfold init_sto in S. rewrite E in S.
  assert (X : match s with SSel (Some _) | SArr (AVals _) => False | _ => True end).
  { clear - E. unfold sto_init in E. repeat (match type of E with context [if ?b then _ else _] => destruct b end);
      try discriminate; injection E as <-; exact I. }
  split; [|now constructor]. inversion S; subst; try contradiction; try (econstructor; eassumption).
Qed.
Lemma fresh_api c w : api_type c -> v_nodes w = flatten c -> fresh w -> api_value w.
Proof.
  destruct w as [n cells]. cbn. intros T -> F. constructor; [exact T|]. unfold fresh in F. cbn in F.
  assert (TY : Forall is_typed (flatten c)) by (eapply Forall_impl; [|exact (flatten_api c T)]; apply api_typed).
  revert TY F. generalize (flatten c). intros l TY F. induction F as [|d (b & s) l cells (H & B) F IH]; [constructor|].
  inversion TY; subst. constructor; [now apply init_node_ok|auto].
Qed.
