(** * C46: requests made by a client: .field(), .record() and .pvRequest() of the builders of operations *)
From Coq Require Import String ZArith List Bool Lia ZifyBool ZifyNat Sorted.
From Verif Require Import Base BaseProofs WireModel TypeModel TypeSpec TypeProofs TypeNameProofs TextModel ValueModel
  ValueSpec BitMaskModel BitMaskSpec MarkModel MarkSpec PvReqModel PvReqSpec PvReqProps ReqModel ReqSpec ReqProofs ReqProofs2 ReqProofs3.
Import ListNotations.
Local Open Scope Z_scope.

(** A text is taken exactly when it is in the language accepted and none of its names is bad, and then has the effect of
    the calls it stands for, in order. *)
Theorem C46_accepts : forall text r r',
  parse text r = (r', Ok tt) <-> exists toks items, lexes (c_str text) toks /\ accepted toks items /\ calls items r = Some r'.
Proof.
  intros text r r'. unfold parse. split.
  - intros E. apply parse_loop_sound in E. destruct E as (toks & items & A & L & C). exists toks, items. rewrite lexes_lexes_to. auto.
  - intros (toks & items & L & A & C). apply lexes_lexes_to in L. eapply parse_loop_complete; eauto.
Qed.
(** All which is documented is accepted. *)
Theorem C46_documented : forall toks items, documented toks items -> accepted toks items.
Proof.
  assert (DF : forall fs fi, doc_fields fs fi -> any_fields fs fi) by (intros fs fi H; induction H; repeat constructor; auto).
  assert (DO : forall os oi, doc_options os oi -> any_options os oi) by (intros os oi H; induction H; constructor; auto).
  intros toks items H. induction H; [constructor|constructor; auto| | | |].
  - apply (acc_field [] [] l i); auto. constructor.
  - apply acc_field; auto.
  - apply (acc_record [] [] l i); auto. constructor.
  - apply acc_record; auto.
Qed.
(** Every text is taken or refused, the error showing the end of the text from where it is wrong, or the bad name, which is
    in the text. *)
Theorem C46_error : forall text r, built r ->
  match snd (parse text r) with
  | Ok _ => True
  | Err (Near s) | Err (At_ s) => exists pre, c_str text = pre ++ s
  | Err (BadName n) => (exists a b, c_str text = a ++ n ++ b) /\ exists x, In x (segments n) /\ ~ identifier x
  | Fuel => False
  end.
Proof.
  intros text r B. apply built_tree in B. unfold parse. pose proof (parse_loop_total (S (length (c_str text))) (c_str text) r ltac:(lia)) as T. destruct (parse_loop_err (S (length (c_str text))) (c_str text) r B) as [_ E].
  destruct (parse_loop _ _ r) as [r1 [u|e|]]; cbn [snd] in *; auto. specialize (E e eq_refl). destruct e; cbn [blames] in E; auto. destruct E as (A & _ & C). auto.
Qed.
(** .field() throws exactly when a word between dots is no identifier; else it adds the field named, with those
    around it, and nothing else.  Options are kept. *)
Theorem C46_field : forall s r, built r -> ~ In 0 s ->
  (snd (add_field s r) = true <-> Forall identifier (segments s)) /\
  r_opts (fst (add_field s r)) = r_opts r /\
  (snd (add_field s r) = true -> forall q, selects (fst (add_field s r)) q <-> q <> [] /\ (selects r q \/ prefix q (segments s))).
Proof.
  intros s r B N. pose proof (built_tree r B) as T. destruct (add_field_tree s r T) as [T1 OK]. split; [|split; [apply add_field_opts|]].
  - rewrite OK. split; intros F; rewrite Forall_forall in *; intros x I; specialize (F x I); (rewrite c_str_id in * || rewrite c_str_id); auto; intros Z; apply N; eapply segments_incl; eauto.
  - intros E q. assert (X : q <> [] -> (selects (fst (add_field s r)) q <-> selects r q \/ prefix q (segments s))).
    { intros NE. rewrite !selects_kids by auto. rewrite add_field_segs in *. destruct (add_segs (segments s) (r_fields r)) as [cs ok] eqn:A. cbn [fst snd r_fields] in *. subst ok. apply (add_present _ _ _ A). }
    split; [intros H; pose proof (selects_nonnil _ _ H); split; auto; apply X; auto|]. intros [NE H]. apply X; auto.
Qed.
(** .record() sets an option, and nothing else. *)
Theorem C46_record : forall k v r k', r_fields (add_record k v r) = r_fields r /\
  map_get k' (r_opts (add_record k v r)) = if list_eq_dec Z.eq_dec k' k then Some v else map_get k' (r_opts r).
Proof.
  intros k v r k'. split; [reflexivity|]. unfold add_record. cbn [r_opts]. rewrite map_get_set. destruct (list_eq_dec Z.eq_dec k' k) as [->|N]; [rewrite str_eqb_refl; reflexivity|].
  apply str_eqb_neq in N. rewrite N. reflexivity.
Qed.
(** What a sequence of calls on a new builder asks for: the paths given, the fields around them, and all of those inside
    which nothing is named.  Of the values given for an option, the last. *)
Theorem C46_names : forall items r, calls items new_req = Some r ->
  (forall q, selects r q <-> q <> [] /\ exists p, In p (paths items) /\ prefix q p) /\
  (forall q, whole r q <-> q <> [] /\ In q (paths items) /\ forall p, In p (paths items) -> prefix q p -> p = q) /\
  (forall k, map_get k (r_opts r) = option_map (fun v => (tc_String, SStr v)) (last_option k items)).
Proof.
  intros items r E. destruct (calls_present items new_req r (conj (NoDup_nil _) (Forall_nil _)) E) as [T H].
  assert (H' : forall q, q <> [] -> (kids q (r_fields r) <> None <-> exists p, In p (paths items) /\ prefix q p)).
  { intros q NE. rewrite H. split; [|auto]. intros [X|X]; auto. destruct q; [contradiction|]. cbn in X. contradiction. }
  split; [|split].
  - intros q. split; [intros S; pose proof (selects_nonnil _ _ S) as NE; split; auto; apply H'; auto; apply selects_kids; auto|]. intros [NE X]. apply selects_kids; auto. apply H'; auto.
  - intros q. assert (NN : whole r q -> q <> []) by (intros (i & c & F & _); apply (selects_nonnil r); exists i, c; auto). split.
    + intros W. specialize (NN W). split; auto. apply whole_kids in W; auto. apply kids_empty in W. destruct W as [P N].
      assert (U : forall p, In p (paths items) -> prefix q p -> p = q).
      { intros p I PX. destruct (prefix_proper q p PX) as [E1|(x & PX')]; auto. exfalso. assert (X : kids (q ++ [x]) (r_fields r) <> None) by (apply H'; [destruct q; discriminate|eauto]). rewrite N in X. contradiction. }
      split; auto. apply H' in P; auto. destruct P as (p & I & PX). rewrite <- (U p I PX) at 1. exact I.
    + intros (NE & I & U). apply whole_kids; auto. apply kids_empty. split; [apply H'; auto; exists q; split; auto; exists []; symmetry; apply app_nil_r|].
      intros x. destruct (kids (q ++ [x]) (r_fields r)) eqn:K; auto. exfalso. assert (X : exists p, In p (paths items) /\ prefix (q ++ [x]) p) by (apply H'; [destruct q; discriminate|congruence]). destruct X as (p & IP & PX). apply prefix_trans_snoc in PX. destruct PX as [PX D]. apply D. apply U; auto.
  - intros k. rewrite (calls_opts items new_req r E k). destruct (last_option k items); reflexivity.
Qed.
(** What is written is read: a request written as text for paths and options asks for those. *)
Theorem C46_written : forall ps os,
  Forall (fun p => p <> [] /\ Forall identifier p /\ p <> [bs "field"] /\ p <> [bs "record"]) ps ->
  Forall (fun o => (fst o <> [] /\ Forall word_char (fst o) /\ fst o <> bs "field" /\ fst o <> bs "record") /\
                   (snd o <> [] /\ Forall word_char (snd o) /\ snd o <> bs "field" /\ snd o <> bs "record")) os ->
  exists r, parse (field_text ps ++ record_text os) new_req = (r, Ok tt) /\
    (forall q, selects r q <-> q <> [] /\ exists p, In p ps /\ prefix q p) /\
    (forall k, map_get k (r_opts r) = option_map (fun v => (tc_String, SStr v)) (last_option k (map (fun o => IOption (fst o) (snd o)) os))).
Proof.
  intros ps os FP FO. set (fi := map IField (map (joined 46) ps)). set (oi := map pair_item os).
  assert (W : Forall wordy (map (joined 46) ps)).
  { rewrite Forall_forall in *. intros n I. apply in_map_iff in I. destruct I as (p & <- & I). destruct (FP p I) as (A & B & C & D). destruct (joined_word p B A) as [E F]. split; auto. split; auto. split; intros X; [apply C|apply D]; rewrite <- (segments_joined p B), X; reflexivity. }
  assert (L : lexes (field_text ps ++ record_text os) ((Field :: Lp :: name_toks (map (joined 46) ps) ++ [Rp]) ++ Record_ :: Lb :: pair_toks os ++ [Rb])).
  { apply lexes_lexes_to. eapply lexes_to_app; [apply lex_field_text; exact W|]. rewrite <- (app_nil_r (record_text os)). apply lex_record_text. exact FO. }
  assert (PA : paths (fi ++ oi ++ []) = ps).
  { subst fi oi. rewrite app_nil_r. assert (Z : paths (map pair_item os) = []) by (clear; induction os; auto). assert (Y : forall l, paths (map IField (map (joined 46) ps) ++ l) = ps ++ paths l).
    { intros l. clear - FP. induction FP as [|p ps (A & B & _) F IH]; [reflexivity|]. cbn [map app paths]. rewrite segments_joined, IH by exact B. reflexivity. } rewrite Y, Z. apply app_nil_r. }
  assert (S : exists r, calls (fi ++ oi ++ []) new_req = Some r).
  { apply calls_succeeds; [split; constructor|]. intros s I. apply in_app_iff in I. destruct I as [I|I].
    - subst fi. apply in_map_iff in I. destruct I as (n & E & I). inversion E. subst n. apply in_map_iff in I. destruct I as (p & <- & I). rewrite Forall_forall in FP. destruct (FP p I) as (_ & B & _). rewrite segments_joined by exact B. eapply Forall_impl; [|exact B]. intros x X. destruct (ident_word x X) as (_ & WC & _). rewrite c_str_id; [exact X|apply word_char_no_nul; exact WC].
    - rewrite app_nil_r in I. subst oi. apply in_map_iff in I. destruct I as (o & E & _). discriminate. }
  destruct S as (r & E). exists r. split.
  - apply C46_accepts. rewrite c_str_id by (apply lexes_lexes_to in L; eapply lexes_no_nul; [exact L|intros []]). eexists. exists (fi ++ oi ++ []). split; [exact L|]. split; [|exact E]. cbn [app]. rewrite <- app_assoc. cbn [app]. apply acc_field; [apply names_fields|]. apply acc_record; [apply pairs_options|constructor].
  - destruct (C46_names _ _ E) as (A & _ & C). rewrite PA in A. split; [exact A|]. intros k. rewrite C. f_equal. rewrite app_nil_r. subst fi oi. clear. induction (map (joined 46) ps); auto.
Qed.
Lemma field_cons : forall m x q i c, field_at m (x :: q) i c -> exists c0, In c0 (m_children m) /\ m_name c0 = x /\
  ((q = [] /\ c = c0) \/ (q <> [] /\ exists j, field_at c0 q j c)).
Proof.
  intros m x q i c H. inversion H; subst.
  - exists c. split; [match goal with E : m_children m = _ |- _ => rewrite E end; apply in_app_iff; right; left; reflexivity|]. auto.
  - exists c0. split; [match goal with E : m_children m = _ |- _ => rewrite E end; apply in_app_iff; right; left; reflexivity|]. split; auto. right. match goal with F : field_at c0 q _ _ |- _ => split; [inversion F; discriminate|eauto] end.
Qed.
(** Whatever was called, the request can be made.  Its member field has the fields asked for; record._options has the
    options, to which their values are assigned. *)
Theorem C46_build : forall r, built r -> exists m vals, build_req (Some r) = OK (m, vals) /\
  (forall q, (exists i c, field_at m (bs "field" :: q) i c /\ m_code c = tc_Struct) <-> q = [] \/ selects r q) /\
  (forall k code, (exists i, field_at m [bs "record"; bs "_options"; k] i (Mem code k [] [])) <-> exists v, map_get k (r_opts r) = Some (code, v)) /\
  (forall k v, In (bs "record._options." ++ k, v) vals <-> exists code, map_get k (r_opts r) = Some (code, v)).
Proof.
  intros r B. pose proof (built_inv r B) as (T & S & F). eexists. eexists. split; [apply build_ok; exact B|]. assert (NDK := sorted_NoDup _ S). split; [|split].
  - intros q. unfold req_type. split.
    + intros (i & c & H & _). apply field_cons in H. destruct H as (c0 & IN & NM & [[-> _]|[NE (j & FA)]]); [left; reflexivity|right]. cbn [m_children] in IN.
      assert (C : c0 = field_member (r_fields r)) by (destruct IN as [<-|IN]; [reflexivity|]; destruct (is_nil (r_opts r)); [destruct IN|]; destruct IN as [<-|[]]; discriminate NM).
      subst c0. unfold field_member in FA. destruct (field_kids _ _ _ _ _ _ FA T) as (_ & K & _). apply selects_kids; auto. congruence.
    + intros [->|SEL].
      * eexists. exists (field_member (r_fields r)). split; [|reflexivity]. change [bs "field"] with [m_name (field_member (r_fields r))]. eapply (fa_child _ []); reflexivity.
      * pose proof (selects_nonnil _ _ SEL) as NE. apply selects_kids in SEL; auto. destruct (kids q (r_fields r)) as [k|] eqn:K; [|contradiction]. destruct (kids_field q (bs "field") [] _ k NE K T) as (i & c & FA & _ & CC).
        eexists. exists c. split; [|exact CC]. change (bs "field") with (m_name (field_member (r_fields r))). eapply (fa_deeper _ []); [reflexivity|reflexivity|reflexivity|exact FA].
  - intros k code. unfold req_type. split.
    + intros (i & H). apply field_cons in H. destruct H as (c0 & IN & NM & [[X _]|[_ (j & FA)]]); [discriminate X|]. cbn [m_children] in IN.
      assert (C : c0 = record_member (r_opts r)) by (destruct IN as [<-|IN]; [discriminate NM|]; destruct (is_nil (r_opts r)); [destruct IN|]; destruct IN as [<-|[]]; reflexivity). subst c0.
      apply field_cons in FA. destruct FA as (c1 & [<-|[]] & _ & [[X _]|[_ (j2 & FA)]]); [discriminate X|]. apply field_cons in FA. destruct FA as (c2 & I & _ & [[_ X]|[X _]]); [|contradiction]. subst c2. cbn [options_member m_children] in I.
      apply in_map_iff in I. destruct I as ([k' [code' v]] & E & I). unfold option_member in E. cbn [fst snd] in E. inversion E. subst. exists v. apply map_get_In; auto.
    + intros (v & G). apply map_get_In in G; auto. assert (NN : is_nil (r_opts r) = false) by (destruct (r_opts r); [destruct G|reflexivity]). rewrite NN. apply (in_map option_member) in G. destruct (in_split _ _ G) as (b & a & E). unfold option_member at 2 in E. cbn [fst snd] in E.
      eexists. change (bs "record") with (m_name (record_member (r_opts r))). eapply (fa_deeper _ [field_member (r_fields r)]); [reflexivity|reflexivity|reflexivity|]. change (bs "_options") with (m_name (options_member (r_opts r))). eapply (fa_deeper _ []); [reflexivity|reflexivity|reflexivity|].
      change [k] with [m_name (Mem code k [] [])]. eapply fa_child; [reflexivity|exact E].
  - intros k v. split.
    + intros I. apply in_map_iff in I. destruct I as ([k' [code v']] & E & I). cbn [fst snd] in E. injection E as E1 E2. subst. exists code. apply map_get_In; auto.
    + intros (code & G). apply map_get_In in G; auto. apply in_map_iff. exists (k, (code, v)). auto.
Qed.
(** A builder on which nothing was called asks for all. *)
Theorem C46_default : exists m, build_req None = OK (m, []) /\ (exists i c, field_at m [bs "field"] i c /\ m_children c = []) /\ forall p i c, field_at m p i c -> p = [bs "field"].
Proof.
  exists (Mem tc_Struct [] [] [Mem tc_Struct (bs "field") [] []]). split; [vm_compute; reflexivity|]. split.
  - eexists. exists (Mem tc_Struct (bs "field") [] []). split; [|reflexivity]. change [bs "field"] with [m_name (Mem tc_Struct (bs "field") [] [])]. eapply (fa_child _ []); reflexivity.
  - intros p i c H. inversion H; subst; cbn [m_children] in *; (destruct before as [|x b]; [|destruct b; discriminate]); match goal with X : [_] = _ |- _ => inversion X; subst end; [reflexivity|].
    match goal with X : field_at (Mem _ _ _ []) _ _ _ |- _ => inversion X; subst; cbn [m_children] in *; match goal with Y : [] = _ ++ _ :: _ |- _ => destruct before; discriminate Y end end.
Qed.

(** *** At the server *)
Lemma req_good : forall r, built r -> describable (req_type r) = true -> Forall (fun o => no_dot (fst o)) (r_opts r) -> good_type (req_type r).
Proof.
  intros r B D N. pose proof (built_inv r B) as (T & S & F). destruct (tree1_codes _ (field_tree1 _ T)) as (_ & FN & FD). split; [exact D|]. assert (ROPT : no_dot (bs "record") /\ no_dot (bs "_options") /\ no_dot (bs "field")) by (repeat split; intros H; cbn in H; unfold dot in H; repeat (destruct H as [H|H]; [discriminate H|]); exact H). destruct ROPT as (R1 & R2 & R3). split.
  - unfold req_type. apply distinct_children. split.
    + intros _. destruct (is_nil (r_opts r)); cbn; repeat constructor; cbn; intuition discriminate.
    + constructor; [exact FD|]. destruct (is_nil (r_opts r)); constructor; [|constructor]. apply distinct_children. split; [intros _; cbn; repeat constructor; intros []|]. constructor; [|constructor]. apply distinct_children. split.
      * intros _. rewrite map_map. unfold option_member. cbn [m_name]. apply sorted_NoDup. exact S.
      * apply Forall_forall. intros c I. apply in_map_iff in I. destruct I as (o & <- & I). apply distinct_children. split; [intros _; constructor|constructor].
  - unfold req_type. apply all_names_children. constructor; [split; [exact R3|exact FN]|]. destruct (is_nil (r_opts r)); constructor; [|constructor]. split; [exact R1|]. apply all_names_children. constructor; [|constructor]. split; [exact R2|]. apply all_names_children.
    apply Forall_forall. intros c I. apply in_map_iff in I. destruct I as (o & <- & I). rewrite Forall_forall in N. split; [apply N; auto|apply all_names_children; constructor].
Qed.
Lemma req_names : forall r q b, built r -> (PvReqSpec.names (field_member (r_fields r)) q b <-> if b then whole r q else selects r q /\ ~ whole r q).
Proof.
  intros r q b B. pose proof (built_tree r B) as T. unfold PvReqSpec.names. split.
  - intros (i & c & F & CC & W). unfold field_member in F. destruct (field_kids _ _ _ _ _ _ F T) as (NE & K & _). destruct b.
    + apply whole_kids; auto. rewrite K. f_equal. apply W. reflexivity.
    + split; [apply selects_kids; auto; congruence|]. rewrite whole_kids by auto. intros K2. rewrite K in K2. inversion K2. apply W in H0. discriminate.
  - intros H. assert (SEL : selects r q) by (destruct b; [destruct H as (i & c & F & _); exists i, c; exact F|apply H]). pose proof (selects_nonnil _ _ SEL) as NE. apply selects_kids in SEL; auto. destruct (kids q (r_fields r)) as [k|] eqn:K; [|contradiction].
    destruct (kids_field q (bs "field") [] _ k NE K T) as (i & c & F & CK & CC). exists i, c. split; [exact F|]. split; [exact CC|]. rewrite CK. destruct b.
    + apply whole_kids in H; auto. rewrite K in H. inversion H. tauto.
    + destruct H as [_ H]. rewrite whole_kids in H by auto. rewrite K in H. split; [discriminate|]. intros ->. exfalso. apply H. reflexivity.
Qed.
(** A request made by calls on a new builder, as a server finds it: the fields served are those named, those around them,
    and all inside those named as a whole.  Nothing named: all.  None of what is named exists: refused. *)
Theorem C46_served : forall m items r q vals,
  good_type m -> m_code m = tc_Struct -> Z.of_nat (nfields m) < 2 ^ 16 ->
  calls items new_req = Some r -> build_req (Some r) = OK (q, vals) -> describable q = true ->
  (forall k v, last_option k items = Some v -> no_dot k) ->
  let wanted k := exists path i d, field_at m path i d /\
    ((exists p, In p (paths items) /\ prefix path p) /\ k = i \/
     (In path (paths items) /\ forall p, In p (paths items) -> prefix path p -> p = path) /\ is_inside (flatten m) i k) in
  ((forall p, In p (paths items) -> p = []) ->
     exists mask, request2mask (flatten m) (flatten q) = DOK mask /\ mask_is mask (nfields m) (fun k => (k < nfields m)%nat)) /\
  ((exists k, wanted k) ->
     exists mask, request2mask (flatten m) (flatten q) = DOK mask /\ mask_is mask (nfields m) (fun k => k = 0%nat \/ wanted k)) /\
  ((exists p, In p (paths items) /\ p <> []) -> ~ (exists k, wanted k) -> request2mask (flatten m) (flatten q) = DThrow).
Proof.
  intros m items r q vals G S NF C BR D ND wanted. assert (B : built r) by (eapply built_calls; [constructor|exact C]). rewrite (build_ok r B) in BR. inversion BR. subst q vals. clear BR.
  destruct (C46_names items r C) as (SEL & WH & OPT).
  assert (NDO : Forall (fun o => no_dot (fst o)) (r_opts r)).
  { apply Forall_forall. intros [k v] I. pose proof (built_inv r B) as (_ & SO & _). apply map_get_In in I; [|apply sorted_NoDup; exact SO]. rewrite OPT in I. destruct (last_option k items) eqn:L; [|discriminate]. cbn [fst]. eapply ND. exact L. }
  pose proof (req_good r B D NDO) as GQ. destruct (C22_selection m (req_type r) G S NF GQ) as [_ H].
  assert (A : asks (req_type r) (field_member (r_fields r))) by (eexists; change [bs "field"] with [m_name (field_member (r_fields r))]; eapply (fa_child _ []); reflexivity).
  destruct (H _ A) as (_ & H2 & H3 & H4). clear H.
  assert (CW : forall k, chosen m (field_member (r_fields r)) k <-> wanted k).
  { intros k. unfold chosen, wanted. split.
    - intros (path & b & i & d & NM & F & K). exists path, i, d. split; auto. apply req_names in NM; auto. assert (SP : selects r path) by (destruct b; [destruct NM as (i' & c & X & _); exists i', c; exact X|apply NM]). destruct K as [->|[-> IN]].
      + left. split; auto. apply SEL in SP. apply SP.
      + right. split; auto. apply WH in NM. apply NM.
    - intros (path & i & d & F & K). assert (NE : path <> []) by (intros ->; inversion F). destruct K as [[P ->]|[[I U] IN]].
      + assert (SP : selects r path) by (apply SEL; auto). assert (WD : whole r path \/ ~ whole r path).
        { pose proof (built_tree r B) as T. rewrite whole_kids by auto. destruct (kids path (r_fields r)) as [[|]|]; [left; reflexivity|right; discriminate|right; discriminate]. }
        destruct WD as [W|W].
        * exists path, true, i, d. split; [apply req_names; auto|auto].
        * exists path, false, i, d. split; [apply req_names; auto|auto].
      + exists path, true, i, d. split; [apply req_names; auto; apply WH; auto|auto]. }
  assert (FS : r_fields r = [] <-> forall p, In p (paths items) -> p = []).
  { split.
    - intros E p I. destruct p as [|x p]; auto. exfalso. assert (SP : selects r [x]) by (apply SEL; split; [discriminate|]; exists (x :: p); split; auto; exists p; reflexivity). apply selects_kids in SP; [|apply built_tree; auto|discriminate]. rewrite E in SP. cbn in SP. contradiction.
    - intros E. destruct (r_fields r) as [|c cs] eqn:FE; auto. exfalso. assert (SP : selects r [m_name c]) by (apply selects_kids; [apply built_tree; auto|discriminate|]; rewrite FE; cbn [kids lookup]; rewrite str_eqb_refl; discriminate). apply SEL in SP. destruct SP as (_ & p & I & (t & X)). rewrite (E p I) in X. discriminate. }
  split; [|split].
  - intros E. apply H2; [reflexivity|]. apply FS. exact E.
  - intros (k & W). destruct H3 as (mask & E & M); [reflexivity|exists k; apply CW; exact W|]. exists mask. split; auto. destruct M as (M1 & M2 & M3 & M4). split; [exact M1|]. split; [exact M2|]. split; [exact M3|]. intros k'. rewrite M4, CW. tauto.
  - intros (p & I & NE) NW. apply H4; [reflexivity| |].
    + intros E. apply NE. apply FS; auto.
    + intros (k & W). apply NW. exists k. apply CW. exact W.
Qed.

(** *** Refuted *)
Definition both : str -> req * res unit := fun s => parse s new_req.
(** Not so: spaces do not matter.  After the last token they are an error. *)
Theorem C46_space_refuted : snd (both (bs " field ( value ) ")) <> Ok tt /\ snd (both (bs " field ( value )")) = Ok tt.
Proof. vm_compute. split; [discriminate|reflexivity]. Qed.
(** Not so: only what is documented is accepted. *)
Theorem C46_grammar_refuted : snd (both (bs "field(a b,,c)record[k=v,]")) = Ok tt /\
  forall toks items, lexes (bs "field(a b,,c)record[k=v,]") toks -> ~ documented toks items.
Proof.
  split; [vm_compute; reflexivity|]. intros toks items L. apply lexes_lexes_to in L.
  assert (U : forall toks1 toks2 s, lexes_to s toks1 [] -> lexes_to s toks2 [] -> toks1 = toks2).
  { clear. induction toks1 as [|t toks1 IH]; intros toks2 s H1 H2.
    - inversion H1; subst. destruct toks2; auto. apply lexes_to_cons in H2. destruct H2 as (mid & T & _). apply tok1_nil in T. destruct T.
    - destruct toks2 as [|t2 toks2]; [inversion H2; subst; apply lexes_to_cons in H1; destruct H1 as (mid & T & _); apply tok1_nil in T; destruct T|]. apply lexes_to_cons in H1, H2. destruct H1 as (m1 & _ & E1 & _ & H1). destruct H2 as (m2 & _ & E2 & _ & H2). rewrite E1 in E2. inversion E2. subst. f_equal. eapply IH; eauto. }
  assert (L2 : lexes_to (bs "field(a b,,c)record[k=v,]") [Field; Lp; Name (bs "a"); Name (bs "b"); Comma; Comma; Name (bs "c"); Rp; Record_; Lb; Name (bs "k"); Eq; Name (bs "v"); Comma; Rb] []).
  { repeat (eapply lt_cons; [apply lex_tok; [discriminate|vm_compute; reflexivity]|]). constructor. }
  rewrite (U _ _ _ L L2). clear. intros H. inversion H; subst.
  match goal with X : doc_fields _ _ |- _ => inversion X; subst; cbn [app] in *; discriminate end.
Qed.
(** Not so: any field can be named.  One called field, or record, is not. *)
Theorem C46_keyword_refuted : identifier (bs "record") /\ snd (both (field_text [[bs "record"]])) <> Ok tt.
Proof. split; [change (bs "record") with (c_str (bs "record")); apply name_validate_identifier; reflexivity|vm_compute; discriminate]. Qed.
(** Not so: naming more fields selects more.  With a field inside named as well, the others inside are not selected. *)
Theorem C46_more_refuted : exists r1 r2, both (bs "field(a)") = (r1, Ok tt) /\ both (bs "field(a,a.b)") = (r2, Ok tt) /\
  whole r1 [bs "a"] /\ ~ whole r2 [bs "a"] /\ ~ selects r2 [bs "a"; bs "c"].
Proof.
  eexists. eexists. split; [vm_compute; reflexivity|]. split; [vm_compute; reflexivity|]. assert (B1 : built (fst (both (bs "field(a)")))) by (constructor; constructor). assert (B2 : built (fst (both (bs "field(a,a.b)")))) by (constructor; constructor). apply built_tree in B1, B2. vm_compute in B1, B2. split; [|split].
  - apply whole_kids; [exact B1|discriminate|vm_compute; reflexivity].
  - rewrite whole_kids; [vm_compute; discriminate|exact B2|discriminate].
  - rewrite selects_kids; [|exact B2|discriminate]. intros H. apply H. vm_compute. reflexivity.
Qed.
(** Not so: a text which is refused changes nothing. *)
Theorem C46_atomic_refuted : exists r s, both (bs "field(a.1b)") = (r, Err (BadName s)) /\ selects r [bs "a"].
Proof.
  eexists. eexists. split; [vm_compute; reflexivity|]. assert (B1 : built (fst (both (bs "field(a.1b)")))) by (constructor; constructor). apply built_tree in B1. vm_compute in B1. apply selects_kids; [exact B1|discriminate|vm_compute; discriminate].
Qed.

(** ** Non-vacuity *)
Example C46_ex :
  lexes (bs "record[process=true] field(value, alarm.severity)x")
    [Record_; Lb; Name (bs "process"); Eq; Name (bs "true"); Rb; Field; Lp; Name (bs "value"); Comma; Name (bs "alarm.severity"); Rp; Name (bs "x")] /\
  documented [Record_; Lb; Name (bs "process"); Eq; Name (bs "true"); Rb; Field; Lp; Name (bs "value"); Comma; Name (bs "alarm.severity"); Rp; Name (bs "x")]
    [IOption (bs "process") (bs "true"); IField (bs "value"); IField (bs "alarm.severity"); IField (bs "x")] /\
  segments (bs "alarm.severity") = [bs "alarm"; bs "severity"].
Proof.
  split; [|split; [|reflexivity]].
  - apply lexes_lexes_to. repeat (eapply lt_cons; [apply lex_tok; [discriminate|vm_compute; reflexivity]|]). constructor.
  - apply (doc_record [Name (bs "process"); Eq; Name (bs "true")] [IOption (bs "process") (bs "true")]); [constructor|]. apply (doc_field [Name (bs "value"); Comma; Name (bs "alarm.severity")] [IField (bs "value"); IField (bs "alarm.severity")]); [constructor; constructor|]. constructor. constructor.
Qed.
Definition served_type : member :=
  Mem tc_Struct [] [] [Mem tc_Int32 (bs "value") [] []; Mem tc_Struct (bs "alarm") [] [Mem tc_Int32 (bs "severity") [] []; Mem tc_Int32 (bs "status") [] []]; Mem tc_Int32 (bs "x") [] []].
Example C46_served_ex : exists r q vals,
  calls [IOption (bs "process") (bs "true"); IField (bs "value"); IField (bs "alarm.severity")] new_req = Some r /\
  build_req (Some r) = OK (q, vals) /\ describable q = true /\ good_type served_type /\
  vals = [(bs "record._options.process", SStr (bs "true"))] /\
  option_map (fun m => map (fun k => mbit m (Z.of_nat k)) (seq 0 6)) (match request2mask (flatten served_type) (flatten q) with DOK m => Some m | _ => None end)
    = Some [true; true; true; true; false; false].
Proof.
  eexists. eexists. eexists. split; [vm_compute; reflexivity|]. split; [vm_compute; reflexivity|]. split; [vm_compute; reflexivity|]. split; [|split; [vm_compute; reflexivity|vm_compute; reflexivity]].
  split; [reflexivity|]. split.
  - cbn. repeat match goal with |- _ /\ _ => split | |- True => exact I end; try (intro H; discriminate); intros _; repeat constructor; cbn; intuition discriminate.
  - cbn. unfold no_dot. repeat match goal with |- _ /\ _ => split | |- True => exact I end; cbn; unfold dot; intuition discriminate.
Qed.

Print Assumptions C46_accepts.
Print Assumptions C46_documented.
Print Assumptions C46_error.
Print Assumptions C46_field.
Print Assumptions C46_record.
Print Assumptions C46_names.
Print Assumptions C46_written.
Print Assumptions C46_build.
Print Assumptions C46_default.
Print Assumptions C46_served.
Print Assumptions C46_space_refuted.
Print Assumptions C46_grammar_refuted.
Print Assumptions C46_keyword_refuted.
Print Assumptions C46_more_refuted.
Print Assumptions C46_atomic_refuted.
