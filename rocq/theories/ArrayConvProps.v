(** C93: what convertTo<>() of a shared_array<> gives, in numbers and text. *)
From Coq Require Import ZArith Bool String List Lia.
From Verif Require Import Base TypeModel ValueSpec CopyModel CopySpec CopyProofs TextModel TextSpec TextProofs CopyProps ArrayModel ArraySpec ArrayProofs ArrayProofs2 ArrayProofs3 ArrayProofs4 ArrayProps.
Import ListNotations.
Local Open Scope Z_scope.

Lemma int_pod c : int_code c -> pod_type (tc_arrayOf c) = true /\ tc_scalarOf (tc_arrayOf c) = c /\ (tc_arrayOf c =? at_String) = false.
Proof. intro H. apply int_codes in H. cbn [In] in H. repeat (destruct H as [<-|H]; [split; [reflexivity|split; reflexivity]|]). easy. Qed.
Lemma array_inj a b : int_code a -> int_code b -> tc_arrayOf a = tc_arrayOf b -> a = b.
Proof. intros A B E. destruct (int_pod a A) as (_ & A1 & _). destruct (int_pod b B) as (_ & B1 & _). congruence. Qed.
Lemma map_cv_total {A B} (f : A -> cv B) l r : Forall2 (fun x y => f x = CV y) l r -> map_cv f l = CV r.
Proof. induction 1 as [|x y l r H _ IH]; cbn [map_cv]; [reflexivity|]. now rewrite H, IH. Qed.
(** success, given how each element converts *)
Lemma convert_made fp s v c vd t t' l l' : reached fp s -> typed s v c vd t -> shown s v = Some l -> elem_type t' = true -> t <> t' ->
  Forall2 (fun x y => conv_elem fp t t' x = CV y) l l' ->
  exists s' w, step fp s (ConvertTo t' v) = (s', Made w) /\ typed s' w c false t' /\ shown s' w = Some l'.
Proof.
  intros R T SH E N F. pose proof T as (h & V & C & D & TT). subst. rewrite (shown_is _ _ _ V) in SH. injection SH as <-.
  assert (G : exists s' w, step fp s (ConvertTo t' v) = (s', Made w)).
  { simpl. rewrite V. unfold convert_to. rewrite E, (proj2 (Z.eqb_neq _ _) N), andb_false_r. cbn [negb]. unfold convert_arr. rewrite (map_cv_total _ _ _ F). unfold bind. eauto. }
  destruct G as (s' & w & G). exists s', w. split; [exact G|].
  destruct (C93_convert fp s v (h_const h) (h_void h) (h_type h) t' (elems s h) s' w R T (shown_is _ _ _ V) G) as (_ & T' & _ & _ & X). split; [exact T'|].
  destruct (X N) as (_ & l2 & S2 & F2). rewrite S2. f_equal. clear - F F2. revert l' F. induction F2 as [|x y l r H _ IH]; intros l' F; inversion F as [|? y' ? r' H' F']; subst; [reflexivity|]. f_equal; [congruence|auto].
Qed.

(** Integers to integers of another type: as many, in order, each modulo the width of the new type.  It does not fail. *)
Theorem C93_convert_integers : forall fp s v c vd st dt zs, reached fp s -> int_code st -> int_code dt -> st <> dt ->
  typed s v c vd (tc_arrayOf st) -> shown s v = Some (map EPod zs) -> Forall (in_type st) zs ->
  exists s' w zs', step fp s (ConvertTo (tc_arrayOf dt) v) = (s', Made w) /\ typed s' w c false (tc_arrayOf dt) /\
    shown s' w = Some (map EPod zs') /\ Forall2 (wraps_to dt) zs zs'.
Proof.
  intros fp s v c vd st dt zs R HS HD N T SH A. destruct (int_pod st HS) as (S1 & S2 & S3). destruct (int_pod dt HD) as (D1 & D2 & D3).
  assert (F : Forall2 (fun x y => conv_elem fp (tc_arrayOf st) (tc_arrayOf dt) x = CV y) (map EPod zs) (map EPod (map (c_cast dt) zs))).
  { clear - A S1 S2 S3 D1 D2 D3 HS HD N. induction A as [|z zs A _ IH]; cbn [map]; constructor; [|exact IH]. unfold conv_elem. rewrite S1, D1, D3. cbn [orb negb].
    rewrite (proj2 (Z.eqb_neq (tc_arrayOf st) (tc_arrayOf dt))) by (intro E; apply N; now apply array_inj). rewrite S2, D2. unfold conv_num. rewrite (is_int_code st HS), (is_int_code dt HD), (conv_int_wraps st dt z HS HD A). reflexivity. }
  assert (E1 : elem_type (tc_arrayOf dt) = true) by (unfold elem_type; now rewrite D1).
  assert (E2 : tc_arrayOf st <> tc_arrayOf dt) by (intro E; apply N; now apply array_inj).
  destruct (convert_made fp s v c vd _ _ _ _ R T SH E1 E2 F) as (s' & w & G1 & G2 & G3).
  exists s', w, (map (c_cast dt) zs). split; [exact G1|]. split; [exact G2|]. split; [exact G3|]. clear - HD. induction zs; cbn; constructor; auto. now apply c_cast_wraps.
Qed.
(** Integers to text. *)
Theorem C93_convert_to_text : forall fp s v c vd st zs, reached fp s -> int_code st -> typed s v c vd (tc_arrayOf st) -> shown s v = Some (map EPod zs) ->
  exists s' w ts, step fp s (ConvertTo tc_StringA v) = (s', Made w) /\ typed s' w c false tc_StringA /\
    shown s' w = Some (map EStr ts) /\ Forall2 (fun z t => decimal_text t z) zs ts.
Proof.
  intros fp s v c vd st zs R HS T SH. destruct (int_pod st HS) as (S1 & S2 & S3).
  assert (NE : tc_arrayOf st <> tc_StringA) by (apply Z.eqb_neq in S3; exact S3).
  assert (F : Forall2 (fun x y => conv_elem fp (tc_arrayOf st) tc_StringA x = CV y) (map EPod zs) (map EStr (map print_int zs))).
  { clear - S1 S2 NE HS. induction zs as [|z zs IH]; cbn [map]; constructor; [|exact IH]. unfold conv_elem. rewrite S1. cbn [orb negb].
    rewrite (proj2 (Z.eqb_neq _ _) NE). change (tc_StringA =? at_String) with true. rewrite orb_true_r. cbn [negb]. rewrite S2. unfold num_text. rewrite (int_not_bool st HS), (is_int_code st HS). reflexivity. }
  destruct (convert_made fp s v c vd _ tc_StringA _ _ R T SH eq_refl NE F) as (s' & w & G1 & G2 & G3).
  exists s', w, (map print_int zs). split; [exact G1|]. split; [exact G2|]. split; [exact G3|]. clear. induction zs; cbn; constructor; auto. apply print_int_spec.
Qed.
(** Text to signed integers: if each is a number of 64 bits; else it throws, and nothing changes. *)
Theorem C93_convert_from_text : forall fp s v c vd dt n ts, reached fp s -> int_width dt = Some n -> typed s v c vd tc_StringA -> shown s v = Some (map EStr ts) ->
  (forall zs, Forall2 (fun t z => denotes t z /\ in_type tc_Int64 z) ts zs ->
    exists s' w zs', step fp s (ConvertTo (tc_arrayOf dt) v) = (s', Made w) /\ typed s' w c false (tc_arrayOf dt) /\
      shown s' w = Some (map EPod zs') /\ Forall2 (wraps_to dt) zs zs') /\
  (Exists (fun t => forall z, denotes t z -> ~ in_type tc_Int64 z) ts ->
    step fp s (ConvertTo (tc_arrayOf dt) v) = (s, Thrown (XConv RNoConvert))).
Proof.
  intros fp s v c vd dt n ts R W T SH. assert (HD : int_code dt) by (left; congruence). destruct (int_pod dt HD) as (D1 & D2 & D3).
  assert (NE : tc_StringA <> tc_arrayOf dt) by (apply Z.eqb_neq in D3; unfold at_String in D3; congruence).
  assert (SG : int_signed dt = true).
  { clear - HD W. apply int_codes in HD. cbn [In] in HD. repeat (destruct HD as [<-|HD]; [try reflexivity; discriminate|]). easy. }
  assert (TN : forall t, conv_elem fp tc_StringA (tc_arrayOf dt) (EStr t) = match parse_i64 t with Some z => CV (EPod (c_cast dt z)) | None => CFail RNoConvert end).
  { intro t. unfold conv_elem. rewrite D1. change (tc_StringA =? at_String) with true. rewrite orb_true_r. cbn [orb negb]. rewrite (proj2 (Z.eqb_neq _ _) NE), D2.
    unfold text_num. rewrite (int_not_bool dt HD), (is_int_code dt HD), SG. now destruct (parse_i64 t). }
  split.
  - intros zs Q. assert (F : Forall2 (fun x y => conv_elem fp tc_StringA (tc_arrayOf dt) x = CV y) (map EStr ts) (map EPod (map (c_cast dt) zs))).
    { clear - Q TN. induction Q as [|t z l zs (D & I) Q IH]; cbn [map]; constructor; [|exact IH]. rewrite TN, (proj2 (parse_i64_spec t z)) by (split; [exact D|exact I]). reflexivity. }
    assert (E1 : elem_type (tc_arrayOf dt) = true) by (unfold elem_type; now rewrite D1).
    destruct (convert_made fp s v c vd _ _ _ _ R T SH E1 NE F) as (s' & w & G1 & G2 & G3).
    exists s', w, (map (c_cast dt) zs). split; [exact G1|]. split; [exact G2|]. split; [exact G3|]. clear - HD. induction zs; cbn; constructor; auto. now apply c_cast_wraps.
  - intro Q. assert (M : map_cv (conv_elem fp tc_StringA (tc_arrayOf dt)) (map EStr ts) = CFail RNoConvert).
    { clear - Q TN. induction Q as [t l N|t l Q IH]; cbn [map map_cv]; rewrite TN.
      - destruct (parse_i64 t) as [z|] eqn:PS; [|reflexivity]. apply parse_i64_spec in PS. destruct PS as (D & I). now apply N in D.
      - rewrite IH. destruct (parse_i64 t); reflexivity. }
    destruct T as (h & V & C & D & TT). rewrite (shown_is _ _ _ V) in SH. injection SH as SH. simpl. rewrite V. unfold convert_to, elem_type. rewrite D1, TT, (proj2 (Z.eqb_neq _ _) NE), andb_false_r. cbn [orb negb].
    unfold convert_arr. rewrite SH, M. reflexivity.
Qed.
(** -1 and 300 as int16, to uint8; then to text. *)
Example C93_convert_example : forall fp, exists s s' s2 v w x, reached fp s /\ typed s v true false (tc_arrayOf tc_Int16) /\ shown s v = Some (map EPod [-1; 300]) /\ Forall (in_type tc_Int16) [-1; 300] /\
  step fp s (ConvertTo (tc_arrayOf tc_UInt8) v) = (s', Made w) /\ shown s' w = Some (map EPod [255; 44]) /\
  step fp s' (ConvertTo tc_StringA v) = (s2, Made x) /\ shown s2 x = Some (map EStr [bs "-1"; bs "300"]).
Proof.
  intro fp. exists (St [(tc_arrayOf tc_Int16, [EPod (-1); EPod 300])] [Some (Hd true false (tc_arrayOf tc_Int16) (Some (0, 0)) 2)])%nat. eexists. eexists. exists 0%nat, 1%nat, 2%nat.
  split; [exists [Build true (tc_arrayOf tc_Int16) [EPod (-1); EPod 300]]; eapply runs_cons; [reflexivity|discriminate|apply runs_nil]|].
  split; [eexists; split; [reflexivity|auto]|]. split; [reflexivity|]. split; [constructor; [|constructor; [|constructor]]; cbv; split; discriminate || reflexivity|].
  split; [vm_compute; reflexivity|]. split; [vm_compute; reflexivity|]. split; vm_compute; reflexivity.
Qed.

Print Assumptions C93_convert_integers.
Print Assumptions C93_convert_to_text.
Print Assumptions C93_convert_from_text.
