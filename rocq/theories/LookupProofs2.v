(** Proofs on the lookup of fields by expression: where an expression leads. *)
From Coq Require Import ZArith List Bool Lia ZifyBool ZifyNat.
From Verif Require Import Base BaseProofs WireModel TypeModel TypeSpec TypeProofs TypeNameProofs TextModel
  ValueModel ValueSpec MarkSpec CopySpec LayoutProofs FieldProofs ValueTypeProofs ValueSafeProofs ValueRoundProofs
  CopyProofs TextSpec TextProofs LookupModel LookupSpec LookupProofs.
Import ListNotations.
Local Open Scope Z_scope.

Lemma cell_set_mid {A} (before : list A) x y after : cell_set (length before) y (before ++ x :: after) = before ++ y :: after.
Proof. induction before as [|z l IH]; cbn; [reflexivity|]. now rewrite IH. Qed.
Lemma nth_mid {A} (before : list A) x after : nth_error (before ++ x :: after) (length before) = Some x.
Proof. rewrite nth_error_app2 by lia. now rewrite Nat.sub_diag. Qed.
Lemma with_sto_mid nodes before b s after s' : with_sto (length before) s' (Val nodes (before ++ (b, s) :: after)) =
  Val nodes (before ++ (b, s') :: after).
Proof. unfold with_sto. cbn [v_cells v_nodes]. now rewrite nth_mid, cell_set_mid. Qed.

Lemma compound_array c : c = tc_StructA \/ c = tc_UnionA \/ c = tc_AnyA ->
  (c =? tc_Struct) = false /\ (c =? tc_Union) = false /\ (c =? tc_Any) = false /\ tc_isarray c && tc_compound c = true.
Proof. intros [->|[->| ->]]; repeat split; reflexivity. Qed.
Lemma union_code : (tc_Union =? tc_Struct) = false /\ (tc_Union =? tc_Union) = true /\ (tc_Union =? tc_Any) = false.
Proof. repeat split; reflexivity. Qed.

(** the text of steps after a name starts with a separator *)
Lemma text_true_stops r : stops stop_union (text_of true r).
Proof. destruct r as [|[|p|n| |t] r]; cbn [text_of app]; reflexivity || exact I. Qed.
Lemma text_false_stops r : ~ down_first r -> stops stop_struct (text_of false r).
Proof. destruct r as [|[|p|n| |t] r]; cbn [text_of app]; intro H; try reflexivity; try exact I. exfalso. now apply H. Qed.

Lemma in_map_fst {A B} (l : list (A * B)) x y : In (x, y) l -> In x (map fst l).
Proof. intro H. apply (in_map fst) in H. exact H. Qed.
Lemma union_member_In d n k : union_member d n k -> In (n, k) (f_iter d).
Proof. intros (b & a & -> & _). apply in_or_app. right. now left. Qed.
Lemma union_none d n : api_node d -> f_code d = tc_Union -> ~ In n (map fst (f_iter d)) -> map_get n (f_lookup d) = None.
Proof. intros A C N. rewrite (union_lookup d n (api_typed d A) C). now apply get_last_None. Qed.
Lemma union_some d n k : api_node d -> f_code d = tc_Union -> (map_get n (f_lookup d) = Some k <-> union_member d n k).
Proof. intros A C. rewrite (union_lookup d n (api_typed d A) C). apply get_last_member. Qed.
Lemma not_identifier_nil : ~ identifier [].
Proof. intros (c & r & H & _). discriminate. Qed.

(** what follows "->" *)
Lemma leading_cut modify w r w' hops j : walks modify w 0 r w' hops j -> fst (cut_at stop_union (text_of false r)) = leading r.
Proof.
  intro W. destruct W as [| |v m i d path k c r v' hops j E T S F N W| | | | ]; try reflexivity.
  pose proof (struct_at_api _ _ _ T S) as TD. destruct (field_path _ _ _ _ TD F) as (P & ID).
  destruct path as [|n path]; [easy|]. inversion ID as [|? ? IN IP]; subst. cbn [text_of app leading].
  rewrite join_cut_union; [reflexivity|exact IN|]. apply stops_weaker. now apply text_false_stops.
Qed.

Lemma walk_forward modify v i steps v' hops j : walks modify v i steps v' hops j -> api_value v ->
  forall fuel start md, (length (text_of md steps) < fuel)%nat ->
  traverse fuel modify start md (text_of md steps) v i = (v', At hops j).
Proof.
  induction 1 as [v i|v p i r v' hops j M W IH|v m i d path k c r v' hops j E T S F N W IH
    |nodes before b k w after d n r w' hops j ND C U ID W IH|nodes before b o after d n k w r w' hops j MD ND C U ID O WN WF W IH
    |nodes before b k w after d r w' hops j ND C W IH|nodes before b eb w ea after d t r w' hops j ND C TN TB TP W IH];
    intros V fuel start md L; (destruct fuel as [|fuel]; [lia|]).
  - reflexivity.
  - (* up *) cbn [text_of app length] in *. destruct (api_type_of v V) as (m & (G & _) & NV & _).
    assert (LY : lay (v_nodes v)) by (rewrite NV; now apply good_lay).
    destruct (member_range _ _ _ LY M) as (dp & di & HP & HI & R & P). destruct (api_cell_ex v i di V HI) as (b & s & HC).
    cbn [traverse]. rewrite HI, HC. change (60 =? c_up) with true. cbv iota.
    replace (i =? 0)%nat with false by lia. replace (i <? f_parent di)%nat with false by lia. rewrite P.
    replace (i - (i - p))%nat with p by lia. apply IH; [exact V|lia].
  - (* down *) pose proof (struct_at_api _ _ _ T S) as TD. destruct (field_path _ _ _ _ TD F) as (PN & PI).
    destruct (struct_at_nodes m i d (proj1 T) S) as (_ & (nd & HI & C & LK) & _).
    rewrite <- E in HI. destruct (api_cell_ex v i nd V HI) as (b & s & HC).
    pose proof (lookup_field d path k c (proj1 TD) (proj1 S) F) as LF.
    destruct path as [|n path]; [easy|]. destruct (join_first n path ltac:(inversion PI; assumption)) as (ch & tl & EJ & ST & _ & DT).
    assert (CUT : cut_at stop_struct (join (n :: path) ++ text_of false r) = (join (n :: path), text_of false r)).
    { apply cut_at_app; [now apply join_free|now apply text_false_stops]. }
    assert (NN : is_nil (join (n :: path)) = false) by (rewrite EJ; reflexivity).
    assert (NU : (ch =? c_up) = false) by (unfold stop_struct in ST; lia).
    assert (CONT : traverse fuel modify false false (text_of false r) v (i + k) = (v', At hops j)).
    { apply IH; [exact V|]. cbn [text_of] in L. rewrite !app_length, EJ in L. cbn [length] in L. lia. }
    cbn [text_of]. destruct md; cbn [app traverse].
    + rewrite HI, HC. change (46 =? c_up) with false. change (46 =? dot) with true. cbn [negb andb].
      rewrite C. change (tc_Struct =? tc_Struct) with true. cbv iota. rewrite CUT, NN, andb_false_r, LK, LF. exact CONT.
    + rewrite EJ. cbn [app]. rewrite HI, HC, NU. rewrite C. change (tc_Struct =? tc_Struct) with true. cbn [andb negb]. cbv iota.
      change (ch :: tl ++ text_of false r) with ((ch :: tl) ++ text_of false r). rewrite <- EJ, CUT, NN, andb_false_r, LK, LF. exact CONT.
  - (* selected *) assert (HC : nth_error (v_cells (Val nodes (before ++ (b, SSel (Some (k, w))) :: after))) (length before) = Some (b, SSel (Some (k, w)))) by apply nth_mid.
    assert (HN : nth_error (v_nodes (Val nodes (before ++ (b, SSel (Some (k, w))) :: after))) (length before) = Some d) by exact ND.
    destruct (api_cell _ _ d _ _ V ND HC) as (AN & _ & AS). apply api_sto_sel in AS.
    cbn [text_of app length] in *. cbn [traverse]. rewrite HN, HC. change (45 =? c_up) with false. cbv iota.
    destruct union_code as (E1 & E2 & E3). rewrite C, E1, E2, E3. change ((45 =? c_minus) && (62 =? c_gt)) with true. cbn [orb]. cbv iota.
    rewrite cut_at_app by (try apply text_true_stops; now apply ident_free_union).
    apply (union_some d n k AN C) in U. rewrite U. rewrite Nat.eqb_refl, orb_true_r.
    rewrite IH; [|exact AS|rewrite app_length in L; lia]. cbn [through]. now rewrite with_sto_mid.
  - (* select *) assert (HC : nth_error (v_cells (Val nodes (before ++ (b, SSel o) :: after))) (length before) = Some (b, SSel o)) by apply nth_mid.
    assert (HN : nth_error (v_nodes (Val nodes (before ++ (b, SSel o) :: after))) (length before) = Some d) by exact ND.
    destruct (api_cell _ _ d _ _ V ND HC) as (AN & _ & AS).
    destruct (api_union d k n AN C (union_member_In _ _ _ U)) as (_ & ty & TY & SD).
    destruct (value_new_fresh ty (proj1 TY)) as (w0 & VN & WN0 & WF0).
    assert (w0 = w) by (apply fresh_unique; [congruence|assumption|assumption]). subst w0.
    assert (AW : api_value w) by (eapply fresh_api; eauto).
    cbn [text_of app length] in *. cbn [traverse]. rewrite HN, HC. change (45 =? c_up) with false. cbv iota.
    destruct union_code as (E1 & E2 & E3). rewrite C, E1, E2, E3. change ((45 =? c_minus) && (62 =? c_gt)) with true. cbn [orb]. cbv iota.
    rewrite cut_at_app by (try apply text_true_stops; now apply ident_free_union).
    pose proof (proj2 (union_some d n k AN C) U) as UG. rewrite UG.
    assert (CH : match o with Some (k', _) => Nat.eqb k' k | None => false end = false).
    { destruct o as [(k' & x)|]; [|reflexivity]. apply Nat.eqb_neq. intros ->. now apply (O x). }
    rewrite CH, orb_false_r, MD, SD, VN. subst modify.
    assert (TR : traverse fuel true false true (text_of true r) w 0 = (w', At hops j)) by (apply IH; [exact AW|rewrite app_length in L; lia]).
    destruct o as [(k' & x)|]; rewrite TR; cbn [through]; now rewrite with_sto_mid.
  - (* deref *) assert (HC : nth_error (v_cells (Val nodes (before ++ (b, SSel (Some (k, w))) :: after))) (length before) = Some (b, SSel (Some (k, w)))) by apply nth_mid.
    assert (HN : nth_error (v_nodes (Val nodes (before ++ (b, SSel (Some (k, w))) :: after))) (length before) = Some d) by exact ND.
    destruct (api_cell _ _ d _ _ V ND HC) as (AN & _ & AS). apply api_sto_sel in AS.
    pose proof (leading_cut _ _ _ _ _ _ W) as LC.
    cbn [text_of app length] in *. cbn [traverse]. rewrite HN, HC. change (45 =? c_up) with false. cbv iota.
    assert (TR : traverse fuel modify false false (text_of false r) w 0 = (w', At hops j)) by (apply IH; [exact AS|lia]).
    destruct C as [C|(C & NL)].
    + rewrite C. change (tc_Any =? tc_Struct) with false. change (tc_Any =? tc_Union) with false. change (tc_Any =? tc_Any) with true.
      change ((45 =? c_minus) && (62 =? c_gt)) with true. cbn [orb]. cbv iota. rewrite TR. cbn [through]. now rewrite with_sto_mid.
    + destruct union_code as (E1 & E2 & E3). rewrite C, E1, E2, E3. change ((45 =? c_minus) && (62 =? c_gt)) with true. cbn [orb]. cbv iota.
      destruct (cut_at stop_union (text_of false r)) as (name & rest) eqn:CU. cbn [fst] in LC. subst name.
      rewrite (union_none d _ AN C NL), TR. cbn [through]. now rewrite with_sto_mid.
  - (* element *) set (l := eb ++ Some w :: ea) in *.
    assert (HC : nth_error (v_cells (Val nodes (before ++ (b, SArr (AVals l)) :: after))) (length before) = Some (b, SArr (AVals l))) by apply nth_mid.
    assert (HN : nth_error (v_nodes (Val nodes (before ++ (b, SArr (AVals l)) :: after))) (length before) = Some d) by exact ND.
    destruct (api_cell _ _ d _ _ V ND HC) as (AN & _ & AS).
    assert (AW : api_value w) by (eapply api_sto_vals; [exact AS|]; apply in_or_app; right; now left).
    destruct (compound_array _ C) as (E1 & E2 & E3 & E4).
    cbn [text_of app length] in *. cbn [traverse]. rewrite HN, HC. change (91 =? c_up) with false. cbv iota.
    rewrite E1, E2, E3, E4. change (91 =? c_open) with true. cbn [orb]. cbv iota.
    rewrite cut_at_app; [| |reflexivity].
    2:{ apply Forall_forall. intros x X. unfold c_close. apply Z.eqb_neq. intros ->. now apply TB. }
    destruct t as [|x t]; [easy|]. rewrite TP.
    replace (Z.of_nat (length eb) <? zlen l) with true.
    2:{ unfold l, zlen. rewrite app_length. cbn [length]. lia. }
    rewrite Nat2Z.id. replace (nth_error l (length eb)) with (Some (Some w)) by (unfold l; now rewrite nth_mid).
    rewrite IH; [|exact AW|cbn [length] in L; rewrite app_length in L; cbn [length] in L; lia]. cbn [through].
    rewrite with_sto_mid. unfold l. now rewrite cell_set_mid.
Qed.

(** ** and nowhere else *)
Lemma not_down v steps v' hops j modify i s : walks modify v i steps v' hops j -> text_of false steps = s -> stops stop_struct s -> ~ down_first steps.
Proof.
  intros W E S. destruct W as [| |v m i d path k c r v' hops j E0 T ST F N W| | | | ]; try exact (fun x => x). intros _.
  pose proof (struct_at_api _ _ _ T ST) as TD. destruct (field_path _ _ _ _ TD F) as (P & ID).
  destruct path as [|n path]; [easy|]. destruct (join_first n path ltac:(inversion ID; assumption)) as (ch & tl & EJ & SS & _).
  cbn [text_of app] in E. rewrite EJ in E. cbn [app] in E. subst s. cbn [stops] in S. congruence.
Qed.
Lemma through_at h r hops j : through h r = At hops j -> exists l, r = At l j /\ hops = h :: l.
Proof. destruct r; cbn [through]; intro H; try discriminate. injection H as <- <-. eauto. Qed.
Lemma split_cell {A} (l : list A) i x : nth_error l i = Some x -> exists before after, l = before ++ x :: after /\ length before = i.
Proof. intro H. apply nth_error_split in H. destruct H as (a & b & -> & L). eauto. Qed.

Lemma walk_backward modify : forall fuel start md s v i v' hops j, api_value v -> (i < length (v_nodes v))%nat ->
  traverse fuel modify start md s v i = (v', At hops j) -> exists steps, text_of md steps = s /\ walks modify v i steps v' hops j.
Proof.
  induction fuel as [|fuel IH]; intros start md s v i v' hops j V IB TR; [discriminate|].
  cbn [traverse] in TR. destruct s as [|c s'].
  { injection TR as <- <- <-. exists []. split; [reflexivity|constructor]. }
  destruct (nth_error (v_nodes v) i) as [d|] eqn:ND; [|discriminate].
  destruct (nth_error (v_cells v) i) as [(b & st)|] eqn:HC; [|discriminate].
  destruct (api_cell v i d b st V ND HC) as (AN & NOK & AS).
  destruct (api_type_of v V) as (m & T & NV & LC).
  destruct (c =? c_up) eqn:CU.
  { apply Z.eqb_eq in CU. subst c. destruct (i =? 0)%nat eqn:I0; [discriminate|]. destruct (i <? f_parent d)%nat eqn:IP; [discriminate|].
    assert (LY : lay (v_nodes v)) by (rewrite NV; apply good_lay, T).
    destruct (lay_parent _ _ _ LY ND ltac:(lia)) as (p & M & P & _). replace (i - f_parent d)%nat with p in TR by lia.
    apply IH in TR; [|exact V|destruct (member_range _ _ _ LY M) as (? & ? & _ & ? & R & _); lia].
    destruct TR as (r & E & W). exists (Up :: r). split; [cbn [text_of app]; now rewrite E|]. econstructor; eauto. }
  destruct (f_code d =? tc_Struct) eqn:CS.
  { apply Z.eqb_eq in CS. destruct (md && negb (c =? dot)) eqn:MD; [discriminate|].
    destruct (cut_at stop_struct (if md then s' else c :: s')) as (name & rest) eqn:CUT.
    destruct (cut_at_spec _ _ _ _ CUT) as (ES & FN & SR).
    destruct (start && is_nil name); [discriminate|]. destruct (map_get name (f_lookup d)) as [k|] eqn:MG; [|discriminate].
    rewrite NV in ND. destruct (struct_at_total m i d (proj1 T) ND CS) as (sd & SA & LK). rewrite LK in MG.
    destruct (lookup_field_only sd name k (proj1 SA) MG) as (path & fd & EN & F).
    assert (KB : (i + k < length (v_nodes v))%nat).
    { destruct (struct_at_nodes m i sd (proj1 T) SA) as (_ & _ & _ & B & _). pose proof (field_at_bound _ _ _ _ F). rewrite NV. lia. }
    apply IH in TR; [|exact V|exact KB]. destruct TR as (r & E & W).
    pose proof (not_down _ _ _ _ _ _ _ _ W E SR) as NDN.
    exists (Down path :: r). split; [|econstructor; eauto].
    cbn [text_of]. rewrite E, <- EN. destruct md; cbn [app].
    - apply andb_false_iff in MD. destruct MD as [MD|MD]; [discriminate|]. apply negb_false_iff, Z.eqb_eq in MD. rewrite MD, ES. reflexivity.
    - now rewrite ES. }
  destruct (split_cell _ _ _ HC) as (before & after & EC & LB).
  destruct v as [nodes cells]. cbn [v_nodes v_cells] in *. subst cells i.
  assert (INNER : forall w, api_value w -> (0 < length (v_nodes w))%nat).
  { intros w AW. destruct (api_type_of w AW) as (m' & _ & -> & _). rewrite <- nfields_flatten. apply nfields_pos. }
  destruct ((f_code d =? tc_Union) || (f_code d =? tc_Any)) eqn:CUA.
  { destruct s' as [|c2 t]; [discriminate|]. destruct ((c =? c_minus) && (c2 =? c_gt)) eqn:ARROW; [|discriminate].
    assert (c = 45 /\ c2 = 62) as (-> & ->) by (unfold c_minus, c_gt in ARROW; lia).
    destruct st as [| | | | | |o|]; try discriminate.
    destruct (f_code d =? tc_Any) eqn:CA.
    - destruct o as [(k & w)|]; [|discriminate]. apply api_sto_sel in AS.
      destruct (traverse fuel modify false false t w 0) as (w' & r) eqn:TI. injection TR as <- TH.
      apply through_at in TH. destruct TH as (l & -> & ->). apply IH in TI; [|exact AS|now apply INNER]. destruct TI as (rs & E & W).
      exists (Deref :: rs). split; [cbn [text_of app]; now rewrite E|]. rewrite with_sto_mid. econstructor; eauto. left. lia.
    - assert (C : f_code d = tc_Union) by lia. destruct (cut_at stop_union t) as (name & rest) eqn:CUT.
      destruct (cut_at_spec _ _ _ _ CUT) as (ES & FN & SR).
      destruct (map_get name (f_lookup d)) as [k|] eqn:MG.
      + pose proof (proj1 (union_some d name k AN C) MG) as U. destruct (api_union d k name AN C (union_member_In _ _ _ U)) as (ID & ty & TY & SD).
        destruct (value_new_fresh ty (proj1 TY)) as (w0 & VN & WN0 & WF0). rewrite SD in TR.
        destruct (match o with Some (k', _) => Nat.eqb k' k | None => false end) eqn:CH.
        * destruct o as [(k' & w)|]; [|discriminate]. apply Nat.eqb_eq in CH. subst k'. rewrite orb_true_r in TR. apply api_sto_sel in AS.
          destruct (traverse fuel modify false true rest w 0) as (w' & r) eqn:TI. injection TR as <- TH.
          apply through_at in TH. destruct TH as (l & -> & ->). apply IH in TI; [|exact AS|now apply INNER]. destruct TI as (rs & E & W).
          exists (Sel name :: rs). split; [cbn [text_of app]; now rewrite E, ES|]. rewrite with_sto_mid. econstructor; eauto.
        * rewrite orb_false_r in TR. destruct modify eqn:MO; [|discriminate]. rewrite VN in TR.
          assert (AW : api_value w0) by (eapply fresh_api; eauto).
          assert (TR' : (let '(w', r) := traverse fuel true false true rest w0 0 in
                   (with_sto (length before) (SSel (Some (k, w'))) (Val nodes (before ++ (b, SSel o) :: after)), through (length before, 0%nat) r)) = (v', At hops j))
            by (destruct o as [(k' & x)|]; exact TR).
          clear TR. destruct (traverse fuel true false true rest w0 0) as (w' & r) eqn:TI. injection TR' as <- TH.
          apply through_at in TH. destruct TH as (l & -> & ->). apply IH in TI; [|exact AW|now apply INNER]. destruct TI as (rs & E & W).
          exists (Sel name :: rs). split; [cbn [text_of app]; now rewrite E, ES|]. rewrite with_sto_mid. eapply w_select; eauto; [|congruence].
          intros x ->. rewrite Nat.eqb_refl in CH. discriminate.
      + destruct o as [(k & w)|]; [|discriminate]. apply api_sto_sel in AS.
        destruct (traverse fuel modify false false t w 0) as (w' & r) eqn:TI. injection TR as <- TH.
        apply through_at in TH. destruct TH as (l & -> & ->). apply IH in TI; [|exact AS|now apply INNER]. destruct TI as (rs & E & W).
        exists (Deref :: rs). split; [cbn [text_of app]; now rewrite E|]. rewrite with_sto_mid. econstructor; eauto. right. split; [exact C|].
        pose proof (leading_cut _ _ _ _ _ _ W) as LD. rewrite E, CUT in LD. cbn [fst] in LD. rewrite <- LD.
        rewrite (union_lookup d name (api_typed d AN) C) in MG. now apply get_last_None in MG. }
  destruct (tc_isarray (f_code d) && tc_compound (f_code d)) eqn:CAR; [|discriminate].
  destruct (c =? c_open) eqn:CO; [|discriminate]. assert (c = 91) as -> by (unfold c_open in CO; lia).
  destruct (cut_at (fun x => x =? c_close) s') as (idx & rest) eqn:CUT. destruct (cut_at_spec _ _ _ _ CUT) as (ES & FN & SR).
  destruct idx as [|x idx]; [discriminate|]. destruct rest as [|c2 t]; [discriminate|].
  cbn [stops] in SR. unfold c_close in SR. apply Z.eqb_eq in SR. subst c2.
  destruct (parse_u64 (x :: idx)) as [n|] eqn:PU; [|discriminate].
  destruct st as [| | | | | | |a]; try discriminate. destruct a as [|t0 l0|l0|l]; try discriminate.
  destruct (n <? zlen l) eqn:NL; [|discriminate].
  destruct (nth_error l (Z.to_nat n)) as [[w|]|] eqn:NE; try discriminate.
  destruct (traverse fuel modify false true t w 0) as (w' & r) eqn:TI. injection TR as <- TH.
  apply through_at in TH. destruct TH as (hl & -> & ->).
  assert (AW : api_value w) by (eapply api_sto_vals; [exact AS|]; eapply nth_error_In; eauto).
  apply IH in TI; [|exact AW|now apply INNER]. destruct TI as (rs & E & W).
  destruct (split_cell _ _ _ NE) as (eb & ea & -> & LEB). rewrite <- LEB, cell_set_mid, with_sto_mid.
  exists (Elem (x :: idx) :: rs). split.
  - cbn [text_of]. rewrite E, ES. cbn [app]. reflexivity.
  - econstructor; eauto.
    + inversion NOK; subst; tauto.
    + discriminate.
    + intro X. unfold free in FN. rewrite Forall_forall in FN. apply FN in X. discriminate X.
    + rewrite PU. f_equal. destruct (parse_u64_spec (x :: idx) n) as (PS & _). specialize (PS PU).
      destruct PS as (z & _ & _ & ->). rewrite LEB. rewrite Z2Nat.id; [reflexivity|]. apply Z.mod_pos_bound. lia.
Qed.

(** ** exceptions *)
Lemma through_threw h r : through h r = Threw -> r = Threw.
Proof. destruct r; cbn; congruence. Qed.
Lemma in_cut stop s a b x : cut_at stop s = (a, b) -> In x b -> In x s.
Proof. intros C I. destruct (cut_at_spec _ _ _ _ C) as (-> & _). apply in_or_app. now right. Qed.
Lemma threw_bracket modify : forall fuel start md s v i v', api_value v ->
  traverse fuel modify start md s v i = (v', Threw) -> In 91 s.
Proof.
  induction fuel as [|fuel IH]; intros start md s v i v' V TR; [discriminate|].
  cbn [traverse] in TR. destruct s as [|c s']; [discriminate|].
  destruct (nth_error (v_nodes v) i) as [d|] eqn:ND; [|discriminate].
  destruct (nth_error (v_cells v) i) as [(b & st)|] eqn:HC; [|discriminate].
  destruct (api_cell v i d b st V ND HC) as (AN & NOK & AS).
  destruct (c =? c_up).
  { destruct (i =? 0)%nat; [discriminate|]. destruct (i <? f_parent d)%nat; [discriminate|]. right. eauto. }
  destruct (f_code d =? tc_Struct).
  { destruct (md && negb (c =? dot)); [discriminate|].
    destruct (cut_at stop_struct (if md then s' else c :: s')) as (name & rest) eqn:CUT.
    destruct (start && is_nil name); [discriminate|]. destruct (map_get name (f_lookup d)) as [k|]; [|discriminate].
    apply IH in TR; [|exact V]. apply (in_cut _ _ _ _ _ CUT) in TR. destruct md; [now right|exact TR]. }
  assert (IN : forall md' t w h (g : value -> value), api_value w ->
    (let '(w', x) := traverse fuel modify false md' t w 0 in (g w', through h x)) = (v', Threw) -> In 91 t).
  { intros md' t w h g AW E. destruct (traverse fuel modify false md' t w 0) as (w' & x) eqn:T. injection E as _ E. apply through_threw in E. subst x. eauto. }
  destruct ((f_code d =? tc_Union) || (f_code d =? tc_Any)) eqn:CUA.
  { destruct s' as [|c2 t]; [discriminate|]. destruct ((c =? c_minus) && (c2 =? c_gt)); [|discriminate].
    destruct st as [| | | | | |o|]; try discriminate. destruct (f_code d =? tc_Any) eqn:CA.
    - destruct o as [(k & w)|]; [|discriminate]. right. right.
      apply (IN _ _ _ _ (fun w' => with_sto i (SSel (Some (k, w'))) v) (api_sto_sel _ _ AS) TR).
    - assert (C : f_code d = tc_Union) by lia. destruct (cut_at stop_union t) as (name & rest) eqn:CUT.
      destruct (map_get name (f_lookup d)) as [k|] eqn:MG.
      + right. right. apply (in_cut _ _ _ _ _ CUT).
        pose proof (proj1 (union_some d name k AN C) MG) as U. destruct (api_union d k name AN C (union_member_In _ _ _ U)) as (ID & ty & TY & SD).
        destruct (value_new_fresh ty (proj1 TY)) as (w0 & VN & WN0 & WF0). rewrite SD, VN in TR.
        assert (AW : api_value w0) by (eapply fresh_api; eauto).
        destruct (modify || _); [|discriminate].
        destruct o as [(k' & w)|].
        * destruct (Nat.eqb k' k).
          -- apply (IN _ _ _ _ (fun w' => with_sto i (SSel (Some (k, w'))) v) (api_sto_sel _ _ AS) TR).
          -- apply (IN _ _ _ _ (fun w' => with_sto i (SSel (Some (k, w'))) v) AW TR).
        * apply (IN _ _ _ _ (fun w' => with_sto i (SSel (Some (k, w'))) v) AW TR).
      + destruct o as [(k & w)|]; [|discriminate]. right. right.
        apply (IN _ _ _ _ (fun w' => with_sto i (SSel (Some (k, w'))) v) (api_sto_sel _ _ AS) TR). }
  destruct (tc_isarray (f_code d) && tc_compound (f_code d)); [|discriminate].
  destruct (c =? c_open) eqn:CO; [|discriminate]. left. unfold c_open in CO. lia.
Qed.
