(** Lemmas on what client requests ask for. *)
From Coq Require Import String ZArith List Bool Lia ZifyBool ZifyNat Sorted.
From Verif Require Import Base BaseProofs WireModel TypeModel TypeSpec TypeProofs TypeNameProofs TextModel ValueModel ReqModel ReqSpec ReqProofs ReqProofs2.
Import ListNotations.
Local Open Scope Z_scope.

(** ** Invariants *)
Section Inv.
  Variable P : req -> Prop.
  Hypothesis HF : forall s r, P r -> P (fst (add_field s r)).
  Hypothesis HR : forall k v r, P r -> P (add_record k (tc_String, SStr v) r).
  Lemma fields_inv : forall f input r, P r -> P (fst (parse_fields f input r)).
  Proof.
    induction f as [|f IH]; intros input r H; cbn [parse_fields]; auto. destruct (lex input) as [[]|]; auto. specialize (HF s r H). destruct (add_field s r) as [r1 []]; auto.
  Qed.
  Lemma options_inv : forall f input r, P r -> P (fst (parse_options f input r)).
  Proof.
    induction f as [|f IH]; intros input r H; [unfold parse_options; destruct (lex input); auto|]. rewrite parse_options_eq. destruct (lex input) as [[]|]; auto. destruct (lex rest) as [t1 r1|]; auto. destruct (lex r1) as [t2 r2|]; auto.
    destruct (is_eq t1); auto. destruct t2; auto. cbv zeta. specialize (HR s s0 r H). destruct (lex r2) as [[]|]; auto.
  Qed.
  Lemma loop_inv : forall f input r, P r -> P (fst (parse_loop f input r)).
  Proof.
    induction f as [|f IH]; intros input r H; cbn [parse_loop]; auto. destruct (lex input) as [[]|]; auto.
    - destruct (lex rest) as [[]|]; auto. pose proof (fields_inv f rest0 r H) as F. destruct (parse_fields f rest0 r) as [r1 [[[] i]|e|]]; auto.
    - destruct (lex rest) as [[]|]; auto. pose proof (options_inv f rest0 r H) as F. destruct (parse_options f rest0 r) as [r1 [[[] i]|e|]]; auto.
    - specialize (HF s r H). destruct (add_field s r) as [r1 []]; auto.
  Qed.
  Lemma calls_inv : forall items r r', P r -> calls items r = Some r' -> P r'.
  Proof.
    induction items as [|[p|k v] items IH]; intros r r' H E; cbn [calls] in E; [congruence| |eauto]. specialize (HF p r H). destruct (add_field p r) as [r1 []]; [eauto|discriminate].
  Qed.
End Inv.
Definition rinv (r : req) : Prop := tree (r_fields r) /\ sorted (r_opts r) /\ Forall (fun o => leaf_code (fst (snd o)) = true) (r_opts r).
Lemma add_field_opts : forall s r, r_opts (fst (add_field s r)) = r_opts r.
Proof. intros. rewrite add_field_segs. destruct (add_segs _ _). reflexivity. Qed.
Lemma map_set_forall : forall (V : Type) (P : str * V -> Prop) k v m, P (k, v) -> Forall P m -> Forall P (map_set k v m).
Proof. intros V P k v m H F. rewrite Forall_forall in *. intros [a b] I. apply map_set_In in I. destruct I as [[-> ->]|I]; auto. Qed.
Lemma rinv_field : forall s r, rinv r -> rinv (fst (add_field s r)).
Proof. intros s r (A & B & C). unfold rinv. rewrite add_field_opts. split; [apply add_field_tree; auto|auto]. Qed.
Lemma rinv_record : forall k code v r, leaf_code code = true -> rinv r -> rinv (add_record k (code, v) r).
Proof. intros k code v r L (A & B & C). unfold rinv, add_record. cbn [r_fields r_opts]. split; auto. split; [apply map_set_sorted; auto|apply map_set_forall; auto]. Qed.
Lemma built_inv : forall r, built r -> rinv r.
Proof.
  intros r H. induction H.
  - split; [split; constructor|]. split; constructor.
  - apply rinv_field. exact IHbuilt.
  - apply rinv_record; auto.
  - unfold parse. apply loop_inv; auto; [apply rinv_field|]. intros. apply rinv_record; auto.
Qed.
Lemma built_tree : forall r, built r -> tree (r_fields r).
Proof. intros r H. apply built_inv in H. apply H. Qed.
Lemma built_calls : forall items r r', built r -> calls items r = Some r' -> built r'.
Proof. intros items r r' H E. eapply (calls_inv built); eauto; intros; constructor; auto. Qed.

(** ** What calls select *)
Lemma calls_present : forall items r r', tree (r_fields r) -> calls items r = Some r' ->
  tree (r_fields r') /\ forall q, kids q (r_fields r') <> None <-> kids q (r_fields r) <> None \/ exists p, In p (paths items) /\ prefix q p.
Proof.
  induction items as [|[p|k v] items IH]; intros r r' T E; cbn [calls paths] in *.
  - inversion E. subst. split; auto. intros q. split; [tauto|]. intros [H|(p & [] & _)]. exact H.
  - destruct (add_field_tree p r T) as [T1 _]. rewrite add_field_segs in *. destruct (add_segs (segments p) (r_fields r)) as [cs ok] eqn:A. destruct ok; [|discriminate]. cbn [fst r_fields] in *. destruct (IH (Req cs (r_opts r)) _ T1 E) as [T2 H]. split; auto. intros q. rewrite H. cbn [r_fields]. rewrite (add_present _ _ _ A q). split.
    + intros [[X|X]|(p' & I & X)]; [tauto|right; exists (segments p); split; [left|]; auto|right; exists p'; split; [right|]; auto].
    + intros [X|(p' & [<-|I] & X)]; [tauto|tauto|right; eauto].
  - destruct (IH (add_record k (tc_String, SStr v) r) _ T E) as [T2 H]. split; auto.
Qed.
Lemma calls_succeeds : forall items r, tree (r_fields r) ->
  ((exists r', calls items r = Some r') <-> forall s, In (IField s) items -> Forall (fun x => identifier (c_str x)) (segments s)).
Proof.
  induction items as [|[p|k v] items IH]; intros r T; cbn [calls].
  - split; [intros _ s []|eauto].
  - destruct (add_field_tree p r T) as [T1 OK]. destruct (add_field p r) as [r1 ok]. cbn [fst snd] in *. destruct ok.
    + rewrite (IH r1 T1). split; [intros H s [E|I]; [inversion E; subst; apply OK; auto|auto]|intros H s I; apply H; right; auto].
    + split; [intros (r' & E); discriminate|]. intros H. assert (X : false = true) by (apply OK, H; left; auto). discriminate.
  - rewrite (IH (add_record k (tc_String, SStr v) r) T). split; [intros H s [E|I]; [discriminate|auto]|intros H s I; apply H; right; auto].
Qed.
Lemma calls_opts : forall items r r', calls items r = Some r' -> forall k,
  map_get k (r_opts r') = match last_option k items with Some v => Some (tc_String, SStr v) | None => map_get k (r_opts r) end.
Proof.
  induction items as [|[p|k0 v] items IH]; intros r r' E k; cbn [calls last_option] in *.
  - congruence.
  - pose proof (add_field_opts p r) as O. destruct (add_field p r) as [r1 []]; [|discriminate]. cbn [fst] in O. rewrite (IH _ _ E), O. reflexivity.
  - rewrite (IH _ _ E). destruct (last_option k items); auto. unfold add_record. cbn [r_opts]. rewrite map_get_set. destruct (list_eq_dec Z.eq_dec k0 k) as [->|N]; [rewrite str_eqb_refl; reflexivity|].
    replace (str_eqb k k0) with false; auto. symmetry. apply str_eqb_neq. congruence.
Qed.
Lemma prefix_trans_snoc : forall q x p, prefix (q ++ [x]) p -> prefix q p /\ p <> q.
Proof. intros q x p (r & ->). split; [exists ([x] ++ r); rewrite app_assoc; reflexivity|]. intros E. apply (f_equal (@length str)) in E. rewrite !app_length in E. cbn [length] in E. lia. Qed.
Lemma prefix_proper : forall q p, prefix q p -> p = q \/ exists x, prefix (q ++ [x]) p.
Proof. intros q p (r & ->). destruct r as [|x r]; [left; apply app_nil_r|right]. exists x, r. rewrite <- app_assoc. reflexivity. Qed.

(** ** Writing *)
Fixpoint name_toks (ns : list str) : list tok :=
  match ns with
  | [] => []
  | [n] => [Name n]
  | n :: l => Name n :: Comma :: name_toks l
  end.
Definition wordy (n : str) : Prop := n <> [] /\ Forall word_char n /\ n <> bs "field" /\ n <> bs "record".
Definition ends (rest : str) : Prop := match rest with c :: _ => ~ word_char c | [] => True end.
Lemma tok_name : forall n rest, wordy n -> ends rest -> tok1 (n ++ rest) (Name n) rest.
Proof. intros n rest (A & B & C & D) E. constructor; auto. constructor; auto. Qed.
Lemma ends_symbol : forall t c s, symbol t = Some c -> ends (c :: s).
Proof. intros t c s H. apply symbol_not_name in H. cbn [ends]. rewrite <- isname_spec. destruct H. congruence. Qed.
Lemma lex_names : forall ns rest, Forall wordy ns -> ends rest -> lexes_to (joined 44 ns ++ rest) (name_toks ns) rest.
Proof.
  induction ns as [|n ns IH]; intros rest F E; [constructor|]. inversion F. subst. destruct ns as [|n2 ns].
  - cbn [joined name_toks]. econstructor; [apply tok_name; auto|constructor].
  - change (joined 44 (n :: n2 :: ns)) with (n ++ 44 :: joined 44 (n2 :: ns)). change (name_toks (n :: n2 :: ns)) with (Name n :: Comma :: name_toks (n2 :: ns)). rewrite <- app_assoc. cbn [app].
    econstructor; [apply tok_name; auto; apply (ends_symbol Comma); reflexivity|]. econstructor; [apply t1_symbol; reflexivity|]. apply IH; auto.
Qed.
Lemma names_fields : forall ns, any_fields (name_toks ns) (map IField ns).
Proof.
  induction ns as [|n ns IH]; [constructor|]. destruct ns as [|n2 ns]; [cbn; constructor; constructor|]. change (name_toks (n :: n2 :: ns)) with (Name n :: Comma :: name_toks (n2 :: ns)). cbn [map]. constructor. constructor. exact IH.
Qed.
Definition pair_text (o : str * str) : str := fst o ++ 61 :: snd o.
Definition pair_item (o : str * str) : item := IOption (fst o) (snd o).
Fixpoint pair_toks (os : list (str * str)) : list tok :=
  match os with
  | [] => []
  | [o] => [Name (fst o); Eq; Name (snd o)]
  | o :: l => Name (fst o) :: Eq :: Name (snd o) :: Comma :: pair_toks l
  end.
Lemma lex_pairs : forall os rest, Forall (fun o => wordy (fst o) /\ wordy (snd o)) os -> ends rest -> lexes_to (joined 44 (map pair_text os) ++ rest) (pair_toks os) rest.
Proof.
  induction os as [|[k v] os IH]; intros rest F E; [constructor|]. inversion F. subst. cbn [fst snd] in H1. destruct H1 as [K V]. destruct os as [|o2 os].
  - cbn [map joined pair_toks fst snd]. unfold pair_text. cbn [fst snd]. rewrite <- app_assoc. cbn [app]. econstructor; [apply tok_name; auto; apply (ends_symbol Eq); reflexivity|]. econstructor; [apply t1_symbol; reflexivity|]. econstructor; [apply tok_name; auto|constructor].
  - change (joined 44 (map pair_text ((k, v) :: o2 :: os))) with ((k ++ 61 :: v) ++ 44 :: joined 44 (map pair_text (o2 :: os))). change (pair_toks ((k, v) :: o2 :: os)) with (Name k :: Eq :: Name v :: Comma :: pair_toks (o2 :: os)). rewrite <- !app_assoc. cbn [app]. cbn [app].
    econstructor; [apply tok_name; auto; apply (ends_symbol Eq); reflexivity|]. econstructor; [apply t1_symbol; reflexivity|]. econstructor; [apply tok_name; auto; apply (ends_symbol Comma); reflexivity|]. econstructor; [apply t1_symbol; reflexivity|]. apply IH; auto.
Qed.
Lemma pairs_options : forall os, any_options (pair_toks os) (map pair_item os).
Proof.
  induction os as [|o os IH]; [constructor|]. destruct os as [|o2 os]; [cbn; constructor|]. change (pair_toks (o :: o2 :: os)) with (Name (fst o) :: Eq :: Name (snd o) :: Comma :: pair_toks (o2 :: os)). cbn [map]. constructor. exact IH.
Qed.
Lemma word_chars : forall w, forallb isname w = true -> Forall word_char w.
Proof. intros w H. apply forallb_Forall in H. eapply Forall_impl; [|exact H]. intros a. apply isname_spec. Qed.
Lemma lex_field_text : forall ps rest, Forall wordy (map (joined 46) ps) -> lexes_to (field_text ps ++ rest) (Field :: Lp :: name_toks (map (joined 46) ps) ++ [Rp]) rest.
Proof.
  intros ps rest F. unfold field_text. change (bs "field(") with (bs "field" ++ [40]). rewrite <- !app_assoc. econstructor.
  - apply t1_word; [discriminate| |apply (ends_symbol Lp (40) (joined 44 (map (joined 46) ps) ++ bs ")" ++ rest)); reflexivity|constructor].
    apply word_chars. reflexivity.
  - econstructor; [apply t1_symbol; reflexivity|]. eapply lexes_to_app; [apply lex_names; auto; apply (ends_symbol Rp); reflexivity|]. econstructor; [apply t1_symbol; reflexivity|constructor].
Qed.
Lemma lex_record_text : forall os rest, Forall (fun o => wordy (fst o) /\ wordy (snd o)) os -> lexes_to (record_text os ++ rest) (Record_ :: Lb :: pair_toks os ++ [Rb]) rest.
Proof.
  intros os rest F. unfold record_text. change (bs "record[") with (bs "record" ++ [91]). rewrite <- !app_assoc. econstructor.
  - apply t1_word; [discriminate| |apply (ends_symbol Lb 91 (joined 44 (map pair_text os) ++ bs "]" ++ rest)); reflexivity|constructor].
    apply word_chars. reflexivity.
  - econstructor; [apply t1_symbol; reflexivity|]. eapply lexes_to_app; [apply lex_pairs; auto; apply (ends_symbol Rb); reflexivity|]. econstructor; [apply t1_symbol; reflexivity|constructor].
Qed.
Lemma ident_word : forall x, identifier x -> x <> [] /\ Forall word_char x /\ no_dot x.
Proof.
  intros x (c & rest & -> & L & F). split; [discriminate|]. split.
  - constructor; [left; auto|]. eapply Forall_impl; [|exact F]. intros a [H|H]; [left|right; left]; auto.
  - intros [H|H]; [subst c; unfold is_letter, dot in L; lia|]. rewrite Forall_forall in F. apply F in H. unfold is_letter, is_digit, dot in H. lia.
Qed.
Lemma split_app : forall x s, no_dot x -> split (x ++ 46 :: s) = x :: split s.
Proof.
  induction x as [|c x IH]; intros s D; cbn [app split]; [reflexivity|]. destruct (Z.eqb_spec c 46) as [->|N]; [exfalso; apply D; left; reflexivity|]. rewrite IH; [reflexivity|]. intros H. apply D. right. exact H.
Qed.
Lemma split_one : forall x, no_dot x -> split x = [x].
Proof.
  induction x as [|c x IH]; intros D; cbn [split]; [reflexivity|]. destruct (Z.eqb_spec c 46) as [->|N]; [exfalso; apply D; left; reflexivity|]. rewrite IH; [reflexivity|]. intros H. apply D. right. exact H.
Qed.
Lemma segments_joined : forall p, Forall identifier p -> segments (joined 46 p) = p.
Proof.
  intros p F. destruct p as [|x p]; [reflexivity|]. assert (SP : split (joined 46 (x :: p)) = x :: p).
  { revert x F. induction p as [|y p IH]; intros x F; inversion F; subst.
    - cbn [joined]. apply split_one. apply ident_word; auto.
    - change (joined 46 (x :: y :: p)) with (x ++ 46 :: joined 46 (y :: p)). rewrite split_app by (apply ident_word; auto). f_equal. apply IH. auto. }
  unfold segments. rewrite SP. clear SP. induction F as [|y l I F IH]; [reflexivity|]. cbn [filter]. destruct (ident_word y I) as (N & _). destruct y; [contradiction|]. f_equal. exact IH.
Qed.
Lemma joined_word : forall p, Forall identifier p -> p <> [] -> joined 46 p <> [] /\ Forall word_char (joined 46 p).
Proof.
  intros p F N. destruct p as [|x p]; [contradiction|]. clear N. revert x F. induction p as [|y p IH]; intros x F; inversion F; subst; destruct (ident_word x ltac:(auto)) as (A & B & _).
  - auto.
  - change (joined 46 (x :: y :: p)) with (x ++ 46 :: joined 46 (y :: p)). destruct (IH y ltac:(auto)) as [_ D]. split; [destruct x; [contradiction|discriminate]|]. apply Forall_app. split; auto. constructor; [right; right; reflexivity|auto].
Qed.
Lemma tok1_no_nul : forall s t rest, tok1 s t rest -> ~ In 0 rest -> ~ In 0 s.
Proof.
  intros s t rest H N. induction H; intros I.
  - destruct I as [I|I]; [discriminate|]. tauto.
  - destruct I as [I|I]; [|tauto]. subst c. destruct t; discriminate.
  - apply in_app_iff in I. destruct I; [|tauto]. eapply word_char_no_nul; eauto.
Qed.
Lemma lexes_no_nul : forall toks s rest, lexes_to s toks rest -> ~ In 0 rest -> ~ In 0 s.
Proof. intros toks s rest H. induction H; intros N; auto. eapply tok1_no_nul; eauto. Qed.

(** ** The type of a request *)
Lemma tree1_ind : forall (P : member -> Prop), (forall m, tree1 m -> Forall P (m_children m) -> P m) -> forall m, tree1 m -> P m.
Proof.
  intros P H m. induction m as [code name id cs IH] using member_ind'. intros T. apply H; auto. apply tree1_eq in T. cbn [m_children] in *. destruct T as (_ & _ & _ & _ & F). rewrite Forall_forall in *. auto.
Qed.
Lemma tree1_built : forall m, tree1 m -> member_built m = true.
Proof.
  apply tree1_ind. intros m T F. pose proof T as T0. apply tree1_eq in T. destruct m as [code name id cs]. cbn [m_code m_id m_name m_children] in *. destruct T as (-> & -> & (I & D) & _ & FT). cbn [member_built]. apply andb_true_iff. split; [|apply forallb_Forall; exact F].
  unfold member_validate. cbn [m_code m_id m_name m_children]. rewrite (proj2 (name_validate_identifier name) I), orb_true_r. cbn [andb]. change (node_validate None [] tc_Struct) with true. cbn [andb]. apply forallb_Forall. eapply Forall_impl; [|exact FT]. intros c TC. apply tree1_eq in TC. destruct TC as (-> & -> & _). reflexivity.
Qed.
Lemma tree1_codes : forall m, tree1 m -> codes_ok m /\ all_names no_dot m /\ distinct_struct_names m.
Proof.
  apply tree1_ind. intros m T F. apply tree1_eq in T. destruct m as [code name id cs]. cbn [m_code m_id m_name m_children] in *. destruct T as (-> & -> & _ & ND & FT). rewrite codes_children, all_names_children, distinct_children. rewrite Forall_forall in F, FT.
  split; [split; [unfold tc_Struct; lia|]; apply Forall_forall; intros c I; apply F; auto|]. split; [|split; [auto|apply Forall_forall; intros c I; apply F; auto]]. apply Forall_forall. intros c I. split; [|apply F; auto]. specialize (FT c I). apply tree1_eq in FT. tauto.
Qed.
Definition field_member (cs : list member) : member := Mem tc_Struct (bs "field") [] cs.
Definition options_member (os : list (str * optval)) : member := Mem tc_Struct (bs "_options") [] (map option_member os).
Definition record_member (os : list (str * optval)) : member := Mem tc_Struct (bs "record") [] [options_member os].
Definition req_type (r : req) : member := Mem tc_Struct [] [] (field_member (r_fields r) :: if is_nil (r_opts r) then [] else [record_member (r_opts r)]).
Lemma field_tree1 : forall cs, tree cs -> tree1 (field_member cs).
Proof. intros cs T. apply tree1_eq. split; [reflexivity|]. split; [reflexivity|]. split; [|exact T]. split; [apply name_validate_identifier; reflexivity|]. intros H. cbn in H. unfold dot in H. repeat (destruct H as [H|H]; [discriminate H|]). exact H. Qed.
Lemma leaf_plist : forall o off, leaf_code (fst (snd o)) = true -> plist_from off [option_member o] = [(fst o, off)].
Proof.
  intros o off L. cbn [plist_from]. unfold option_member. rewrite plist_eq. destruct (Z.eqb_spec (fst (snd o)) tc_Struct) as [E|]; [rewrite E in L; discriminate|]. cbn [map app m_name]. match goal with |- context [if ?b then _ else _] => destruct b; reflexivity end.
Qed.
Lemma options_keys : forall os off, Forall (fun o => leaf_code (fst (snd o)) = true) os -> keys (plist_from off (map option_member os)) = keys os.
Proof.
  induction os as [|o os IH]; intros off F; [reflexivity|]. inversion F. subst. cbn [map]. change (option_member o :: map option_member os) with ([option_member o] ++ map option_member os). rewrite plist_from_app. unfold keys in *. rewrite map_app, leaf_plist, IH by auto. reflexivity.
Qed.
Lemma nodup_prefixed : forall (l : list str) a, NoDup l -> NoDup (map (fun p => a ++ dot :: p) l).
Proof. intros l a H. induction H; cbn [map]; constructor; auto. intros I. apply in_map_iff in I. destruct I as (y & E & I). apply app_inv_head in E. inversion E. subst. contradiction. Qed.
Lemma one_keys : forall c off, keys (plist_from off [c]) = m_name c :: map (fun p => m_name c ++ dot :: p) (keys (plist c)).
Proof. intros c off. cbn [plist_from]. rewrite app_nil_r. unfold keys. cbn [map fst]. rewrite !map_map. reflexivity. Qed.
Lemma one_nodup : forall c off, NoDup (keys (plist c)) -> NoDup (keys (plist_from off [c])).
Proof.
  intros c off H. rewrite one_keys. constructor; [|apply nodup_prefixed; auto]. intros I. apply in_map_iff in I. destruct I as (y & E & _). apply (f_equal (@length Z)) in E. rewrite app_length in E. cbn [length] in E. lia.
Qed.
Lemma asserts_struct : forall name id cs, forallb build_asserts cs = true -> NoDup (keys (plist_from 1 cs)) -> build_asserts (Mem tc_Struct name id cs) = true.
Proof.
  intros name id cs F N. rewrite build_asserts_eq, F. cbn [andb]. cbv zeta. apply Nat.eqb_eq. pose proof (proj2 (top_assert tc_Struct id cs ltac:(unfold tc_Struct; lia)) (fun _ => N)) as T. exact T.
Qed.
Lemma leaf_asserts : forall o, leaf_code (fst (snd o)) = true -> build_asserts (option_member o) = true.
Proof.
  intros o L. apply build_asserts_names; unfold option_member; [apply codes_children|apply all_names_children; constructor|apply distinct_children; split; constructor]. split; [|constructor]. unfold leaf_code in L. apply andb_true_iff in L. destruct L as [L _]. apply andb_true_iff in L. destruct L as [L1 L2]. apply Z.leb_le in L1. apply Z.ltb_lt in L2. split; assumption.
Qed.
Lemma options_nodup : forall os, sorted os -> Forall (fun o => leaf_code (fst (snd o)) = true) os -> NoDup (keys (plist (options_member os))).
Proof. intros os S F. unfold options_member. rewrite plist_eq. change (tc_Struct =? tc_Struct) with true. cbv iota. rewrite options_keys by auto. apply sorted_NoDup. exact S. Qed.
Lemma record_asserts : forall os, sorted os -> Forall (fun o => leaf_code (fst (snd o)) = true) os -> build_asserts (record_member os) = true /\ NoDup (keys (plist (record_member os))).
Proof.
  intros os S F. pose proof (options_nodup os S F) as ND. assert (R : NoDup (keys (plist_from 1 [options_member os]))) by (apply one_nodup; exact ND). split; [|exact R]. apply asserts_struct; [|exact R]. cbn [forallb]. rewrite andb_true_r. apply asserts_struct; [|exact ND].
  apply forallb_Forall. rewrite Forall_forall in *. intros c I. apply in_map_iff in I. destruct I as (o & <- & I). apply leaf_asserts. auto.
Qed.
Lemma first_of_one : forall c off x, In x (keys (plist_from off [c])) -> firstn (length (m_name c)) x = m_name c.
Proof. intros c off x I. rewrite one_keys in I. destruct I as [<-|I]; [apply firstn_all|]. apply in_map_iff in I. destruct I as (y & <- & _). apply firstn_len_app. Qed.
Lemma NoDup_app_iff_ : forall (A : Type) (a b : list A), NoDup a /\ NoDup b /\ (forall x, In x a -> In x b -> False) -> NoDup (a ++ b).
Proof.
  intros A a b (NA & NB & D). induction NA as [|x a N NA IH]; cbn [app]; auto. constructor; [|apply IH; intros y I; apply D; right; auto]. intros I. apply in_app_iff in I. destruct I as [I|I]; [auto|]. apply (D x); [left|]; auto.
Qed.
Lemma two_nodup : forall a b off, NoDup (keys (plist a)) -> NoDup (keys (plist b)) -> m_name a = bs "field" -> m_name b = bs "record" -> NoDup (keys (plist_from off [a; b])).
Proof.
  intros a b off NA NB A B. change [a; b] with ([a] ++ [b]). rewrite plist_from_app. unfold keys in *. rewrite map_app. pose proof (one_nodup a off NA) as H1. pose proof (fun o => one_nodup b o NB) as H2. unfold keys in H1, H2.
  apply NoDup_app_iff_. split; auto. split; auto. intros x I1 I2. apply first_of_one in I1. apply first_of_one in I2. rewrite A in I1. rewrite B in I2. destruct x as [|z x]; [discriminate|]. cbn [length bs firstn] in I1, I2. assert (z = 102) by (injection I1; auto). assert (z = 114) by (injection I2; auto). lia.
Qed.
Lemma field_nodup : forall cs, tree cs -> build_asserts (field_member cs) = true /\ NoDup (keys (plist (field_member cs))).
Proof. intros cs T. apply field_tree1 in T. apply tree1_codes in T. destruct T as (A & B & C). split; [apply build_asserts_names; auto|apply plist_NoDup; auto]. Qed.
Lemma build_ok : forall r, built r -> build_req (Some r) = OK (req_type r, map (fun o => (bs "record._options." ++ fst o, snd (snd o))) (r_opts r)).
Proof.
  intros r B. apply built_inv in B. destruct B as (T & S & F). unfold build_req. fold (field_member (r_fields r)). destruct (field_nodup _ T) as [FA FN]. unfold typedef_make.
  assert (MB : member_built (Mem tc_Struct [] [] [field_member (r_fields r)]) = true).
  { cbn [member_built forallb]. rewrite (tree1_built _ (field_tree1 _ T)). reflexivity. }
  rewrite MB. cbn [negb]. unfold build_tree. rewrite asserts_struct; [| cbn [forallb]; rewrite FA; reflexivity|apply one_nodup; exact FN].
  unfold req_type. destruct (r_opts r) as [|o os] eqn:O; cbn [is_nil]; [reflexivity|]. rewrite <- O in *. clear O. unfold typedef_append. cbn [m_code m_children m_name m_id fold_left]. change (sou tc_Struct) with true. cbn [negb].
  fold (options_member (r_opts r)). fold (record_member (r_opts r)). change (append_child (record_member (r_opts r)) [field_member (r_fields r)]) with (Some [field_member (r_fields r); record_member (r_opts r)]). cbv beta iota.
  destruct (record_asserts _ S F) as [RA RN]. unfold build_tree. rewrite asserts_struct; [reflexivity| |apply two_nodup; auto]. cbn [forallb]. rewrite FA, RA. reflexivity.
Qed.
