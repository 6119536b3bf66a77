(** Lemmas on parsing client requests. *)
From Coq Require Import String ZArith List Bool Lia ZifyBool ZifyNat.
From Verif Require Import Base BaseProofs WireModel TypeModel TypeSpec TypeProofs TypeNameProofs TextModel ValueModel ReqModel ReqSpec ReqProofs.
Import ListNotations.
Local Open Scope Z_scope.

(** ** Sequences of tokens *)
Inductive lexes_to : str -> list tok -> str -> Prop :=
| lt_nil : forall s, lexes_to s [] s
| lt_cons : forall s t mid toks rest, tok1 s t mid -> lexes_to mid toks rest -> lexes_to s (t :: toks) rest.
Lemma lexes_lexes_to : forall toks text, lexes text toks <-> lexes_to text toks [].
Proof.
  induction toks as [|t toks IH]; intros text.
  - split; intros H; [apply lexes_nil in H; subst; constructor|inversion H; subst; constructor].
  - rewrite lexes_cons. split.
    + intros (rest & T & L). apply IH in L. econstructor; eauto.
    + intros H. inversion H; subst. exists mid. split; auto. apply IH. auto.
Qed.
Lemma lexes_to_app : forall a b s mid rest, lexes_to s a mid -> lexes_to mid b rest -> lexes_to s (a ++ b) rest.
Proof. intros a b s mid rest H. induction H; intros; cbn [app]; auto. econstructor; eauto. Qed.
Lemma lexes_to_split : forall a b s rest, lexes_to s (a ++ b) rest -> exists mid, lexes_to s a mid /\ lexes_to mid b rest.
Proof.
  induction a as [|t a IH]; intros b s rest H; cbn [app] in H; [exists s; split; [constructor|auto]|]. inversion H; subst. destruct (IH _ _ _ H5) as (m & A & B). exists m. split; auto. econstructor; eauto.
Qed.
Lemma tok1_len : forall s t rest, tok1 s t rest -> (length rest < length s)%nat.
Proof. intros s t rest H. destruct (tok1_shorter _ _ _ H) as (pre & -> & N). rewrite app_length. destruct pre; [contradiction|cbn [length]; lia]. Qed.
Lemma tok1_suffix : forall s t rest, tok1 s t rest -> exists pre, s = pre ++ rest.
Proof. intros s t rest H. destruct (tok1_shorter _ _ _ H) as (pre & -> & N). eauto. Qed.
Lemma tok1_lex : forall s t rest, tok1 s t rest -> lex s = Tok t rest.
Proof. intros s t rest H. apply lex_tok; auto. intros ->. apply tok1_nil in H. exact H. Qed.
Lemma lexes_to_cons : forall s t toks rest, lexes_to s (t :: toks) rest -> exists mid, tok1 s t mid /\ lex s = Tok t mid /\ (length mid < length s)%nat /\ lexes_to mid toks rest.
Proof. intros s t toks rest H. inversion H; subst. exists mid. split; auto. split; [apply tok1_lex; auto|]. split; [eapply tok1_len; eauto|auto]. Qed.
Ltac unlex H := let m := fresh "m" in let T := fresh "T" in let E := fresh "E" in let N := fresh "N" in
  apply lexes_to_cons in H; destruct H as (m & T & E & N & H); rewrite ?E.
Lemma lex_tok1 : forall s t rest, lex s = Tok t rest -> (s = [] /\ t = Eof /\ rest = []) \/ tok1 s t rest.
Proof. intros s t rest E. destruct s as [|c s]; [left; inversion E; auto|right; apply lex_tok; [discriminate|exact E]]. Qed.
Lemma lex_not_eof : forall s t rest, lex s = Tok t rest -> t <> Eof -> tok1 s t rest.
Proof. intros s t rest E N. destruct (lex_tok1 _ _ _ E) as [(_ & B & _)|H]; [contradiction|auto]. Qed.
Lemma lex_suffix : forall s t rest, lex s = Tok t rest -> exists pre, s = pre ++ rest.
Proof. intros s t rest E. destruct (lex_tok1 _ _ _ E) as [(-> & _ & ->)|H]; [exists []; reflexivity|eapply tok1_suffix; eauto]. Qed.
Lemma lexes_to_suffix : forall s toks rest, lexes_to s toks rest -> exists pre, s = pre ++ rest.
Proof. intros s toks rest H. induction H; [exists []; reflexivity|]. destruct (tok1_suffix _ _ _ H) as (a & ->). destruct IHlexes_to as (b & ->). exists (a ++ b). apply app_assoc. Qed.

(** ** Calls *)
Lemma calls_app : forall a b r, calls (a ++ b) r = match calls a r with Some r1 => calls b r1 | None => None end.
Proof. induction a as [|[p|k v] a IH]; intros b r; cbn [app calls]; auto. destruct (add_field p r) as [r1 []]; auto. Qed.

(** ** parse_fields() *)
Lemma parse_fields_sound : forall f input r r' rest, parse_fields f input r = (r', Ok (Rp, rest)) ->
  exists toks items mid, any_fields toks items /\ lexes_to input toks mid /\ tok1 mid Rp rest /\ calls items r = Some r'.
Proof.
  induction f as [|f IH]; intros input r r' rest E; cbn [parse_fields] in E; [discriminate|]. destruct (lex input) as [t i1|] eqn:L; [|discriminate]. destruct t; try discriminate.
  - destruct (IH _ _ _ _ E) as (toks & items & mid & A & B & C & D). exists (Comma :: toks), items, mid. split; [constructor; auto|]. split; [|auto]. econstructor; [|exact B]. apply lex_not_eof; [exact L|discriminate].
  - inversion E. subst. exists [], [], input. split; [constructor|]. split; [constructor|]. split; [|reflexivity]. apply lex_not_eof; [exact L|discriminate].
  - destruct (add_field s r) as [r1 ok] eqn:AF. destruct ok; [|discriminate]. destruct (IH _ _ _ _ E) as (toks & items & mid & A & B & C & D). exists (Name s :: toks), (IField s :: items), mid. split; [constructor; auto|]. split; [econstructor; [|exact B]; apply lex_not_eof; [exact L|discriminate]|]. split; auto.
    cbn [calls]. rewrite AF. exact D.
Qed.
Lemma parse_fields_complete : forall toks items, any_fields toks items -> forall f input mid rest r r', lexes_to input toks mid -> tok1 mid Rp rest -> calls items r = Some r' -> (length input < f)%nat -> parse_fields f input r = (r', Ok (Rp, rest)).
Proof.
  intros toks items H. induction H; intros f input mid rest r r' L T C LEN; (destruct f as [|f]; [lia|]); cbn [parse_fields].
  - inversion L; subst. rewrite (tok1_lex _ _ _ T). cbn [calls] in C. congruence.
  - unlex L. eapply IHany_fields; eauto. lia.
  - unlex L. cbn [calls] in C. destruct (add_field n r) as [r1 []]; [|discriminate]. eapply IHany_fields; eauto. lia.
Qed.
Lemma parse_fields_total : forall f input r, (length input < f)%nat -> snd (parse_fields f input r) <> Fuel.
Proof.
  induction f as [|f IH]; intros input r LEN; [lia|]. cbn [parse_fields]. destruct (lex input) as [t i1|] eqn:L; [|discriminate]. destruct t; try discriminate.
  - apply IH. pose proof (tok1_len _ _ _ (lex_not_eof _ _ _ L ltac:(discriminate))). lia.
  - destruct (add_field s r) as [r1 []]; [|discriminate]. apply IH. pose proof (tok1_len _ _ _ (lex_not_eof _ _ _ L ltac:(discriminate))). lia.
Qed.

(** ** parse_options() *)
Lemma parse_options_eq : forall f input r, parse_options (S f) input r =
  match lex input with
  | LexErr s => (r, Err (Near s))
  | Tok (Name key) i1 =>
    match lex i1 with
    | LexErr s => (r, Err (Near s))
    | Tok t1 rest1 =>
      match lex rest1 with
      | LexErr s => (r, Err (Near s))
      | Tok t2 rest2 =>
        match is_eq t1, t2 with
        | true, Name val =>
          let r1 := add_record key (tc_String, SStr val) r in
          match lex rest2 with
          | LexErr s => (r1, Err (Near s))
          | Tok Comma rest3 => parse_options f rest3 r1
          | Tok t3 rest3 => (r1, Ok (t3, rest3))
          end
        | _, _ => (r, Err (At_ i1))
        end
      end
    end
  | Tok t i1 => (r, Ok (t, i1))
  end.
Proof. intros. unfold parse_options. cbn [options_loop]. destruct (lex input) as [[]|]; reflexivity. Qed.
Lemma parse_options_sound : forall f input r r' rest, parse_options f input r = (r', Ok (Rb, rest)) ->
  exists toks items mid, any_options toks items /\ lexes_to input toks mid /\ tok1 mid Rb rest /\ calls items r = Some r'.
Proof.
  induction f as [|f IH]; intros input r r' rest E; [unfold parse_options in E; destruct (lex input); cbn [options_loop] in E; discriminate|]. rewrite parse_options_eq in E.
  destruct (lex input) as [t i1|] eqn:L0; [|discriminate]. destruct t; try discriminate.
  - inversion E. subst. exists [], [], input. split; [constructor|]. split; [constructor|]. split; [|reflexivity]. apply lex_not_eof; [exact L0|discriminate].
  - destruct (lex i1) as [t1 i2|] eqn:L1; [|discriminate]. destruct (lex i2) as [t2 i3|] eqn:L2; [|discriminate]. destruct t1; cbn [is_eq] in E; try discriminate. destruct t2; try discriminate. cbv zeta in E.
    apply lex_not_eof in L0; [|discriminate]. apply lex_not_eof in L1; [|discriminate]. apply lex_not_eof in L2; [|discriminate].
    destruct (lex i3) as [t3 i4|] eqn:L3; [|discriminate]. destruct t3; try discriminate.
    + destruct (IH _ _ _ _ E) as (toks & items & mid & A & B & C & D). apply lex_not_eof in L3; [|discriminate]. exists (Name s :: Eq :: Name s0 :: Comma :: toks), (IOption s s0 :: items), mid. split; [constructor; auto|]. split; [do 4 (econstructor; [eassumption|]); exact B|]. auto.
    + inversion E. subst. apply lex_not_eof in L3; [|discriminate]. exists [Name s; Eq; Name s0], [IOption s s0], i3. split; [constructor|]. split; [do 3 (econstructor; [eassumption|]); constructor|]. auto.
Qed.
Lemma parse_options_complete : forall toks items, any_options toks items -> forall f input mid rest r r', lexes_to input toks mid -> tok1 mid Rb rest -> calls items r = Some r' -> (length input < f)%nat -> parse_options f input r = (r', Ok (Rb, rest)).
Proof.
  intros toks items H. induction H; intros f input mid rest r r' L T C LEN; (destruct f as [|f]; [lia|]); rewrite parse_options_eq.
  - inversion L; subst. rewrite (tok1_lex _ _ _ T). cbn [calls] in C. congruence.
  - unlex L. unlex L. unlex L. inversion L; subst. cbn [is_eq]. cbv zeta. rewrite (tok1_lex _ _ _ T). cbn [calls] in C. congruence.
  - unlex L. unlex L. unlex L. unlex L. cbn [is_eq]. cbv zeta. rewrite ?E2. eapply IHany_options; eauto. lia.
Qed.
Lemma lex_len : forall s t rest, lex s = Tok t rest -> (length rest <= length s)%nat.
Proof. intros s t rest E. destruct (lex_suffix _ _ _ E) as (pre & ->). rewrite app_length. lia. Qed.
Lemma parse_options_total : forall f input r, (length input < f)%nat -> snd (parse_options f input r) <> Fuel.
Proof.
  induction f as [|f IH]; intros input r LEN; [lia|]. rewrite parse_options_eq. destruct (lex input) as [t i1|] eqn:L0; [|discriminate]. destruct t; try discriminate.
  apply lex_not_eof in L0; [|discriminate]. apply tok1_len in L0. destruct (lex i1) as [t1 i2|] eqn:L1; [|discriminate]. apply lex_len in L1. destruct (lex i2) as [t2 i3|] eqn:L2; [|discriminate]. apply lex_len in L2.
  destruct (is_eq t1); [|discriminate]. destruct t2; try discriminate. cbv zeta. destruct (lex i3) as [t3 i4|] eqn:L3; [|discriminate]. apply lex_len in L3. destruct t3; try discriminate. apply IH. lia.
Qed.

(** ** parse() *)
Lemma parse_loop_sound : forall f input r r', parse_loop f input r = (r', Ok tt) ->
  exists toks items, accepted toks items /\ lexes_to input toks [] /\ calls items r = Some r'.
Proof.
  induction f as [|f IH]; intros input r r' E; cbn [parse_loop] in E; [discriminate|]. destruct (lex input) as [t i1|] eqn:L0; [|discriminate]. destruct t; try discriminate.
  - apply lex_not_eof in L0; [|discriminate]. destruct (lex i1) as [t1 i2|] eqn:L1; [|discriminate]. destruct t1; try discriminate. apply lex_not_eof in L1; [|discriminate]. destruct (parse_fields f i2 r) as [r1 [[[] i3]|e|]] eqn:PF; try discriminate.
    apply parse_fields_sound in PF. destruct PF as (fs & fi & mid & A & B & C & D). destruct (IH _ _ _ E) as (toks & items & A' & B' & C'). exists (Field :: Lp :: fs ++ Rp :: toks), (fi ++ items). split; [constructor; auto|]. split.
    + do 2 (econstructor; [eassumption|]). eapply lexes_to_app; [exact B|]. econstructor; eauto.
    + rewrite calls_app, D. exact C'.
  - apply lex_not_eof in L0; [|discriminate]. destruct (lex i1) as [t1 i2|] eqn:L1; [|discriminate]. destruct t1; try discriminate. apply lex_not_eof in L1; [|discriminate]. destruct (parse_options f i2 r) as [r1 [[[] i3]|e|]] eqn:PF; try discriminate.
    apply parse_options_sound in PF. destruct PF as (fs & fi & mid & A & B & C & D). destruct (IH _ _ _ E) as (toks & items & A' & B' & C'). exists (Record_ :: Lb :: fs ++ Rb :: toks), (fi ++ items). split; [constructor; auto|]. split.
    + do 2 (econstructor; [eassumption|]). eapply lexes_to_app; [exact B|]. econstructor; eauto.
    + rewrite calls_app, D. exact C'.
  - apply lex_not_eof in L0; [|discriminate]. destruct (add_field s r) as [r1 ok] eqn:AF. destruct ok; [|discriminate]. destruct (IH _ _ _ E) as (toks & items & A & B & C). exists (Name s :: toks), (IField s :: items). split; [constructor; auto|]. split; [econstructor; eauto|]. cbn [calls]. rewrite AF. exact C.
  - destruct (lex_tok1 _ _ _ L0) as [(-> & _)|T]; [|apply tok1_eof in T; contradiction]. inversion E. subst. exists [], []. split; [constructor|]. split; [constructor|reflexivity].
Qed.
Lemma lexes_to_len : forall s toks rest, lexes_to s toks rest -> (length rest <= length s)%nat.
Proof. intros s toks rest H. destruct (lexes_to_suffix _ _ _ H) as (pre & ->). rewrite app_length. lia. Qed.
Lemma parse_loop_complete : forall toks items, accepted toks items -> forall f input r r', lexes_to input toks [] -> calls items r = Some r' -> (length input < f)%nat -> parse_loop f input r = (r', Ok tt).
Proof.
  intros toks items H. induction H; intros f input r r' L C LEN; (destruct f as [|f]; [lia|]); cbn [parse_loop].
  - inversion L; subst. cbn [lex]. cbn [calls] in C. congruence.
  - unlex L. cbn [calls] in C. destruct (add_field n r) as [r1 []]; [|discriminate]. eapply IHaccepted; eauto. lia.
  - unlex L. unlex L. apply lexes_to_split in L. destruct L as (md & A & B). unlex B. rewrite calls_app in C. destruct (calls fi r) as [r1|] eqn:C1; [|discriminate].
    rewrite (parse_fields_complete _ _ H f _ _ _ r r1 A T1 C1) by lia. apply lexes_to_len in A. eapply IHaccepted; eauto. lia.
  - unlex L. unlex L. apply lexes_to_split in L. destruct L as (md & A & B). unlex B. rewrite calls_app in C. destruct (calls oi r) as [r1|] eqn:C1; [|discriminate].
    rewrite (parse_options_complete _ _ H f _ _ _ r r1 A T1 C1) by lia. apply lexes_to_len in A. eapply IHaccepted; eauto. lia.
Qed.
(** where parse_fields() stops *)
Lemma parse_fields_rest : forall f input r r' t rest, parse_fields f input r = (r', Ok (t, rest)) -> exists pre, input = pre ++ rest.
Proof.
  induction f as [|f IH]; intros input r r' t rest E; cbn [parse_fields] in E; [discriminate|]. destruct (lex input) as [t0 i1|] eqn:L; [|discriminate]. destruct (lex_suffix _ _ _ L) as (a & ->).
  destruct t0; try (inversion E; subst; eauto; fail).
  - destruct (IH _ _ _ _ _ E) as (b & ->). exists (a ++ b). apply app_assoc.
  - destruct (add_field s r) as [r1 []]; [|discriminate]. destruct (IH _ _ _ _ _ E) as (b & ->). exists (a ++ b). apply app_assoc.
Qed.
Lemma parse_options_rest : forall f input r r' t rest, parse_options f input r = (r', Ok (t, rest)) -> exists pre, input = pre ++ rest.
Proof.
  induction f as [|f IH]; intros input r r' t rest E; [unfold parse_options in E; destruct (lex input); cbn [options_loop] in E; discriminate|]. rewrite parse_options_eq in E.
  destruct (lex input) as [t0 i1|] eqn:L0; [|discriminate]. destruct (lex_suffix _ _ _ L0) as (a & ->). destruct t0; try (inversion E; subst; eauto; fail).
  destruct (lex i1) as [t1 i2|] eqn:L1; [|discriminate]. destruct (lex_suffix _ _ _ L1) as (b & ->). destruct (lex i2) as [t2 i3|] eqn:L2; [|discriminate]. destruct (lex_suffix _ _ _ L2) as (c & ->). destruct (is_eq t1); [|discriminate]. destruct t2; try discriminate. cbv zeta in E.
  destruct (lex i3) as [t3 i4|] eqn:L3; [|discriminate]. destruct (lex_suffix _ _ _ L3) as (d & ->). assert (X : exists pre, i4 = pre ++ rest) by (destruct t3; try (inversion E; subst; exists []; reflexivity); eapply IH; eauto).
  destruct X as (e & ->). exists (a ++ b ++ c ++ d ++ e). rewrite <- !app_assoc. reflexivity.
Qed.
Lemma parse_loop_total : forall f input r, (length input < f)%nat -> snd (parse_loop f input r) <> Fuel.
Proof.
  induction f as [|f IH]; intros input r LEN; [lia|]. cbn [parse_loop]. destruct (lex input) as [t i1|] eqn:L0; [|discriminate]. destruct t; try discriminate.
  - apply lex_not_eof in L0; [|discriminate]. apply tok1_len in L0. destruct (lex i1) as [t1 i2|] eqn:L1; [|discriminate]. apply lex_len in L1. destruct t1; try discriminate.
    pose proof (parse_fields_total f i2 r ltac:(lia)) as T. destruct (parse_fields f i2 r) as [r1 [[t3 i3]|e|]] eqn:PF; [|discriminate|contradiction]. apply parse_fields_rest in PF. destruct PF as (pre & ->). rewrite app_length in L1. destruct t3; try discriminate. apply IH. lia.
  - apply lex_not_eof in L0; [|discriminate]. apply tok1_len in L0. destruct (lex i1) as [t1 i2|] eqn:L1; [|discriminate]. apply lex_len in L1. destruct t1; try discriminate.
    pose proof (parse_options_total f i2 r ltac:(lia)) as T. destruct (parse_options f i2 r) as [r1 [[t3 i3]|e|]] eqn:PF; [|discriminate|contradiction]. apply parse_options_rest in PF. destruct PF as (pre & ->). rewrite app_length in L1. destruct t3; try discriminate. apply IH. lia.
  - apply lex_not_eof in L0; [|discriminate]. apply tok1_len in L0. destruct (add_field s r) as [r1 []]; [|discriminate]. apply IH. lia.
Qed.

(** ** Errors *)
Definition tok_part (s w : str) : Prop := exists a b, s = a ++ w ++ b.
(** [good s e]: what an error says about the text [s] *)
Definition blames (s : str) (e : err) : Prop :=
  match e with
  | Near x | At_ x => exists pre, s = pre ++ x
  | BadName n => (exists a b, s = a ++ n ++ b) /\ Forall word_char n /\ exists x, In x (segments n) /\ ~ identifier x
  end.
Lemma blames_suffix : forall a s e, blames s e -> blames (a ++ s) e.
Proof.
  intros a s [x|x|n]; cbn [blames].
  - intros (pre & ->). exists (a ++ pre). apply app_assoc.
  - intros (pre & ->). exists (a ++ pre). apply app_assoc.
  - intros ((p & q & ->) & R). split; auto. exists (a ++ p), q. rewrite <- !app_assoc. reflexivity.
Qed.
Lemma tok1_name : forall s n rest, tok1 s (Name n) rest -> (exists pre, s = pre ++ n ++ rest) /\ Forall word_char n.
Proof.
  intros s n rest H. remember (Name n) as t. induction H; subst.
  - destruct (IHtok1 eq_refl) as ((pre & ->) & F). split; auto. exists (32 :: pre). reflexivity.
  - discriminate.
  - inversion H2; subst. split; auto. exists []. reflexivity.
Qed.
Lemma word_char_no_nul : forall n, Forall word_char n -> ~ In 0 n.
Proof. intros n F H. rewrite Forall_forall in F. apply F in H. unfold word_char, is_letter, is_digit in H. lia. Qed.
Lemma split_incl : forall s x c, In x (split s) -> In c x -> In c s.
Proof.
  induction s as [|a s IH]; intros x c I1 I2; cbn [split] in I1; [destruct I1 as [<-|[]]; contradiction|]. destruct (a =? 46).
  - destruct I1 as [<-|I1]; [contradiction|]. right. eapply IH; eauto.
  - destruct (split s) as [|w l] eqn:E; [destruct I1 as [<-|[]]; left; destruct I2 as [I2|[]]; auto|]. destruct I1 as [<-|I1].
    + destruct I2 as [<-|I2]; [left; auto|]. right. apply (IH w c); [left; auto|auto].
    + right. apply (IH x c); [right; auto|auto].
Qed.
Lemma segments_incl : forall s x c, In x (segments s) -> In c x -> In c s.
Proof. intros s x c I1 I2. apply filter_In in I1. destruct I1 as [I1 _]. eapply split_incl; eauto. Qed.
Lemma add_field_tree : forall s r, tree (r_fields r) -> tree (r_fields (fst (add_field s r))) /\ (snd (add_field s r) = true <-> Forall (fun x => identifier (c_str x)) (segments s)).
Proof.
  intros s r T. rewrite add_field_segs. pose proof (add_tree (segments s) (r_fields r) (segments_nodot s) T). pose proof (add_ok (segments s) (r_fields r) T). destruct (add_segs _ _) as [cs ok]. auto.
Qed.
Lemma ident_dec : forall s, {identifier (c_str s)} + {~ identifier (c_str s)}.
Proof. intros. destruct (name_validate s) eqn:E; [left; apply name_validate_identifier; auto|right]. rewrite <- name_validate_identifier. congruence. Qed.
Lemma not_forall_seg : forall l, ~ Forall (fun x => identifier (c_str x)) l -> exists x, In x l /\ ~ identifier (c_str x).
Proof.
  induction l as [|a l IH]; intros N; [exfalso; apply N; constructor|]. destruct (ident_dec a) as [I|I].
  - destruct IH as (x & A & B); [intros F; apply N; constructor; auto|]. exists x. split; [right|]; auto.
  - exists a. split; [left|]; auto.
Qed.
Lemma bad_name : forall input n rest r r1, tok1 input (Name n) rest -> tree (r_fields r) -> add_field n r = (r1, false) -> blames input (BadName n).
Proof.
  intros input n rest r r1 T1 T AF. destruct (tok1_name _ _ _ T1) as ((pre & ->) & F). cbn [blames]. split; [eauto|]. split; auto. destruct (add_field_tree n r T) as [_ OK]. rewrite AF in OK. cbn [snd] in OK.
  destruct (not_forall_seg (segments n)) as (x & I & NI); [intros A; apply OK in A; discriminate|]. exists x. split; auto. rewrite c_str_id in NI; auto. intros Z. apply (word_char_no_nul n F). eapply segments_incl; eauto.
Qed.
Lemma parse_fields_err : forall f input r, tree (r_fields r) -> tree (r_fields (fst (parse_fields f input r))) /\ forall e, snd (parse_fields f input r) = Err e -> blames input e.
Proof.
  induction f as [|f IH]; intros input r T; cbn [parse_fields]; [split; [auto|discriminate]|]. destruct (lex input) as [t i1|] eqn:L.
  - destruct t; try (split; [exact T|discriminate]).
    + destruct (lex_suffix _ _ _ L) as (a & ->). destruct (IH i1 r T) as [A B]. split; auto. intros e E. apply blames_suffix. auto.
    + destruct (add_field_tree s r T) as [T1 _]. destruct (add_field s r) as [r1 ok] eqn:AF. cbn [fst] in T1. destruct ok.
      * destruct (lex_suffix _ _ _ L) as (a & ->). destruct (IH i1 r1 T1) as [A B]. split; auto. intros e E. apply blames_suffix. auto.
      * split; auto. intros e E. inversion E. subst. eapply bad_name; [apply lex_not_eof; [exact L|discriminate]|exact T|exact AF].
  - split; auto. intros e E. inversion E. subst. cbn [blames]. eapply lex_err; eauto.
Qed.
Lemma parse_options_err : forall f input r, r_fields (fst (parse_options f input r)) = r_fields r /\ forall e, snd (parse_options f input r) = Err e -> blames input e.
Proof.
  induction f as [|f IH]; intros input r.
  - unfold parse_options. destruct (lex input) as [t i1|] eqn:L; cbn [options_loop]; [split; [auto|discriminate]|]. split; auto. intros e E. inversion E. subst. cbn [blames]. eapply lex_err; eauto.
  - rewrite parse_options_eq. destruct (lex input) as [t i1|] eqn:L0; [|split; auto; intros e E; inversion E; subst; eapply lex_err; eauto].
    destruct t; try (split; [reflexivity|discriminate]). destruct (lex_suffix _ _ _ L0) as (a & ->). destruct (lex i1) as [t1 i2|] eqn:L1; [|split; auto; intros e E; inversion E; subst; apply blames_suffix; eapply lex_err; eauto].
    destruct (lex_suffix _ _ _ L1) as (b & ->). destruct (lex i2) as [t2 i3|] eqn:L2; [|split; auto; intros e E; inversion E; subst; do 2 apply blames_suffix; eapply lex_err; eauto].
    destruct (lex_suffix _ _ _ L2) as (c & ->). assert (BAD : r_fields (fst (r, Err (A := tok * str) (At_ (b ++ c ++ i3)))) = r_fields r /\ forall e, snd (r, Err (A := tok * str) (At_ (b ++ c ++ i3))) = Err e -> blames (a ++ b ++ c ++ i3) e) by (split; auto; intros e E; inversion E; subst; exists a; reflexivity).
    destruct (is_eq t1); [|exact BAD]. destruct t2; try exact BAD. cbv zeta. destruct (lex i3) as [t3 i4|] eqn:L3; [|split; [reflexivity|]; intros e E; inversion E; subst; do 3 apply blames_suffix; eapply lex_err; eauto].
    destruct (lex_suffix _ _ _ L3) as (d & ->). destruct t3; try (split; [reflexivity|discriminate]). destruct (IH i4 (add_record s (tc_String, SStr s0) r)) as [A B]. split; [exact A|]. intros e E. do 4 apply blames_suffix. auto.
Qed.
Lemma parse_loop_err : forall f input r, tree (r_fields r) -> tree (r_fields (fst (parse_loop f input r))) /\ forall e, snd (parse_loop f input r) = Err e -> blames input e.
Proof.
  induction f as [|f IH]; intros input r T; cbn [parse_loop]; [split; [auto|discriminate]|]. destruct (lex input) as [t i1|] eqn:L0; [|split; auto; intros e E; inversion E; subst; eapply lex_err; eauto].
  assert (BAD : forall r0, tree (r_fields r0) -> tree (r_fields (fst (r0, Err (A := unit) (At_ input)))) /\ forall e, snd (r0, Err (A := unit) (At_ input)) = Err e -> blames input e) by (intros r0 T0; split; auto; intros e E; inversion E; subst; exists []; reflexivity).
  destruct t; try (apply BAD; exact T).
  - destruct (lex i1) as [t1 i2|] eqn:L1.
    2: { destruct (lex_suffix _ _ _ L0) as (a & ->). split; auto; intros e E; inversion E; subst; apply blames_suffix; eapply lex_err; eauto. }
    destruct t1; try (apply BAD; exact T). destruct (parse_fields_err f i2 r T) as [A B]. destruct (parse_fields f i2 r) as [r1 [[t3 i3]|e|]] eqn:PF; cbn [fst snd] in *.
    + destruct t3; try (apply BAD; exact A). apply parse_fields_rest in PF. destruct (lex_suffix _ _ _ L0) as (x & ->). destruct (lex_suffix _ _ _ L1) as (y & ->). destruct PF as (z & ->). destruct (IH i3 r1 A) as [C D]. split; auto. intros e E. do 3 apply blames_suffix. auto.
    + destruct (lex_suffix _ _ _ L0) as (x & ->). destruct (lex_suffix _ _ _ L1) as (y & ->). split; auto. intros e0 E. inversion E. subst. do 2 apply blames_suffix. auto.
    + split; auto. discriminate.
  - destruct (lex i1) as [t1 i2|] eqn:L1.
    2: { destruct (lex_suffix _ _ _ L0) as (a & ->). split; auto; intros e E; inversion E; subst; apply blames_suffix; eapply lex_err; eauto. }
    destruct t1; try (apply BAD; exact T). destruct (parse_options_err f i2 r) as [A B]. destruct (parse_options f i2 r) as [r1 [[t3 i3]|e|]] eqn:PF; cbn [fst snd] in *; assert (T1 : tree (r_fields r1)) by (rewrite A; exact T).
    + destruct t3; try (apply BAD; exact T1). apply parse_options_rest in PF. destruct (lex_suffix _ _ _ L0) as (x & ->). destruct (lex_suffix _ _ _ L1) as (y & ->). destruct PF as (z & ->). destruct (IH i3 r1 T1) as [C D]. split; auto. intros e E. do 3 apply blames_suffix. auto.
    + destruct (lex_suffix _ _ _ L0) as (x & ->). destruct (lex_suffix _ _ _ L1) as (y & ->). split; auto. intros e0 E. inversion E. subst. do 2 apply blames_suffix. auto.
    + split; auto. discriminate.
  - destruct (add_field_tree s r T) as [T1 _]. destruct (add_field s r) as [r1 ok] eqn:AF. cbn [fst] in T1. destruct ok.
    + destruct (lex_suffix _ _ _ L0) as (a & ->). destruct (IH i1 r1 T1) as [A B]. split; auto. intros e E. apply blames_suffix. auto.
    + split; auto. intros e E. inversion E. subst. eapply bad_name; [apply lex_not_eof; [exact L0|discriminate]|exact T|exact AF].
  - split; auto. discriminate.
Qed.
