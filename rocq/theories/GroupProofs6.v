(** Creation of groups. *)
From Coq Require Import String ZArith List Bool Lia ZifyBool ZifyNat Sorting.Permutation Sorting.Sorted.
From Verif Require Import Base BaseProofs WireModel TypeModel TextModel TextSpec TextProofs ValueModel MarkModel CopyModel NtModel
  TypeSpec TypeProofs TypeNameProofs TypeDefProofs NtSpec NtProofs GroupModel GroupSpec GroupProofs GroupProofs3 GroupProofs4 GroupProofs5.
Import ListNotations.
Local Open Scope Z_scope.

Lemma named_parse n path : named n path -> parse_name n = Some path /\ full_name path = n.
Proof.
  intros [(-> & ->)|(N & F & ->)]; [split; reflexivity|]. split; [now apply print_parse|]. destruct path; [congruence|reflexivity].
Qed.
Lemma named_undotted n path : named n path -> undotted path.
Proof.
  intros [(-> & ->)|(N & F & ->)]; [constructor|]. unfold undotted. eapply Forall_impl; [|exact F]. intros c (D & _). exact D.
Qed.
Lemma named_fun n p q : named n p -> named n q -> p = q.
Proof. intros A B. apply named_parse in A as (A & _), B as (B & _). congruence. Qed.
(** what is made of a definition *)
Definition like (db : str -> option chan) (d : fdef) (f : cfield) : Prop :=
  made db (pair_of d) f /\ cf_full f = fd_name d.
Lemma dbr_valid t : t <> DNoAccess -> tc_valid (from_dbr t) = true /\ tc_valid (tc_arrayOf (from_dbr t)) = true.
Proof. destruct t; intro H; try congruence; vm_compute; auto. Qed.
Lemma make_field_ok db d : makeable db (pair_of d) -> exists f, make_field db d = Some f /\ like db d f /\ cf_trig f = [].
Proof.
  intros ((path & N) & C). unfold pair_of in *. cbn [fst snd] in *. destruct (named_parse _ _ N) as (P & FN).
  unfold make_field. rewrite P. cbv beta iota zeta. rewrite FN. unfold like, made. cbn [pair_of fst snd].
  unfold has_channel. destruct (fc_channel (fd_conf d)) as [|x l] eqn:E; cbn [is_nil negb andb].
  - exists {| cf_path := path; cf_full := fd_name d; cf_conf := fd_conf d; cf_chan := None; cf_any := None; cf_trig := [] |}.
    cbn [cf_path cf_full cf_conf cf_chan cf_trig]. try rewrite E. cbn [is_nil].
    split; [destruct (fc_type (fd_conf d)); reflexivity|]. auto.
  - destruct C as (c & DB & A); [discriminate|]. rewrite DB.
    assert (K : exists any, match match fc_type (fd_conf d), Some c with
                | MAny, Some c => Some (if ch_elems c =? 1 then from_dbr (ch_type c) else tc_arrayOf (from_dbr (ch_type c)))
                | _, _ => None end with
                | Some code => if tc_valid code then Some {| cf_path := path; cf_full := fd_name d; cf_conf := fd_conf d; cf_chan := Some c;
                     cf_any := match fc_type (fd_conf d), Some c with
                | MAny, Some c => Some (if ch_elems c =? 1 then from_dbr (ch_type c) else tc_arrayOf (from_dbr (ch_type c)))
                | _, _ => None end; cf_trig := [] |} else None
                | None => Some {| cf_path := path; cf_full := fd_name d; cf_conf := fd_conf d; cf_chan := Some c; cf_any := None; cf_trig := [] |}
                end = Some {| cf_path := path; cf_full := fd_name d; cf_conf := fd_conf d; cf_chan := Some c; cf_any := any; cf_trig := [] |}).
    { destruct (fc_type (fd_conf d)); try (exists None; reflexivity).
      destruct (dbr_valid _ (A eq_refl)) as (V1 & V2). destruct (ch_elems c =? 1); [rewrite V1|rewrite V2]; eexists; reflexivity. }
    destruct K as (any & K). eexists. split; [exact K|]. cbn [cf_path cf_full cf_conf cf_chan cf_trig]. try rewrite E. cbn [is_nil]. auto.
Qed.
Lemma make_fields_ok db l : Forall (fun d => makeable db (pair_of d)) l ->
  exists fs, make_fields db l = (fs, true) /\ Forall2 (like db) l fs /\ Forall (fun f => cf_trig f = []) fs.
Proof.
  induction 1 as [|d l M F (fs & E & L & T)]; [exists []; split; [reflexivity|split; constructor]|].
  destruct (make_field_ok _ _ M) as (f & MF & LF & TF). exists (f :: fs). cbn [make_fields]. rewrite MF, E. split; [reflexivity|]. split; constructor; assumption.
Qed.
Lemma find_full_at n fs : forall i f, nth_error fs i = Some f -> cf_full f = n -> NoDup (map cf_full fs) -> find_full n fs = Some i.
Proof.
  induction fs as [|g fs IH]; intros i f I E N; [destruct i; discriminate|]. cbn [find_full map] in *. inversion N as [|? ? N1 N2]; subst.
  destruct i as [|i]; cbn [nth_error] in I.
  - inversion I; subst. now rewrite str_eqb_refl.
  - destruct (str_eqb (cf_full g) (cf_full f)) eqn:Q.
    + exfalso. apply str_eqb_eq in Q. apply N1. rewrite Q. apply in_map. eapply nth_error_In; eauto.
    + now rewrite (IH i f).
Qed.
Lemma index_of_at n l : forall i d, nth_error l i = Some d -> fd_name d = n -> NoDup (map fd_name l) -> index_of n l = Some i.
Proof.
  induction l as [|g fs IH]; intros i f I E N; [destruct i; discriminate|]. cbn [index_of map] in *. inversion N as [|? ? N1 N2]; subst.
  destruct i as [|i]; cbn [nth_error] in I.
  - inversion I; subst. now rewrite str_eqb_refl.
  - destruct (str_eqb (fd_name g) (fd_name f)) eqn:Q.
    + exfalso. apply str_eqb_eq in Q. apply N1. rewrite Q. apply in_map. eapply nth_error_In; eauto.
    + now rewrite (IH i f).
Qed.
(** positions of triggers *)
Definition at_positions (defs : list fdef) (l : list str) (t : list nat) : Prop :=
  forall j, In j t <-> exists h, nth_error defs j = Some h /\ In (fd_name h) l.
Lemma trigger_positions_ok defs n l : NoDup (map fd_name defs) -> length defs = n -> exists t, trigger_positions defs n l = JOk t /\ at_positions defs l t.
Proof.
  intros N L. induction l as [|x l (t & E & A)]; cbn [trigger_positions].
  - exists []. split; [reflexivity|]. intro j. cbn. split; [intros []|intros (h & _ & [])].
  - destruct (index_of x defs) as [i|] eqn:I.
    + destruct (index_of_Some _ _ _ I) as (g & G & GN). assert (LT : (i < n)%nat) by (rewrite <- L; apply nth_error_Some; congruence).
      apply Nat.ltb_lt in LT. rewrite LT, E. exists (i :: t). split; [reflexivity|]. intro j. cbn [In]. rewrite (A j). split.
      * intros [<-|(h & H1 & H2)]; [exists g; split; [assumption|left; congruence]|exists h; auto].
      * intros (h & H1 & [H2|H2]); [left|right; eauto]. assert (index_of x defs = Some j) by (eapply index_of_at; eauto). congruence.
    + rewrite E. exists t. split; [reflexivity|]. intro j. rewrite (A j). cbn [In]. split.
      * intros (h & H1 & H2). eauto.
      * intros (h & H1 & [H2|H2]); [|eauto]. exfalso. apply (index_of_None _ _ I). rewrite H2. apply in_map. eapply nth_error_In; eauto.
Qed.
Definition with_trig (f : cfield) (t : list nat) : cfield :=
  {| cf_path := cf_path f; cf_full := cf_full f; cf_conf := cf_conf f; cf_chan := cf_chan f; cf_any := cf_any f; cf_trig := cf_trig f ++ t |}.
Lemma set_trig_mid a f b t : set_trig (length a) t (a ++ f :: b) = a ++ with_trig f t :: b.
Proof. unfold set_trig. rewrite firstn_app, firstn_all, Nat.sub_diag, firstn_O, app_nil_r, skipn_app, skipn_all, Nat.sub_diag. reflexivity. Qed.
(** the field for a definition once triggers are known *)
Definition full (db : str -> option chan) (defs : list fdef) (d : fdef) (f : cfield) : Prop :=
  like db d f /\ (if has_channel d then at_positions defs (fd_triggers d) (cf_trig f) else cf_trig f = []).
Lemma F2_len {A B} (R : A -> B -> Prop) l m : Forall2 R l m -> length l = length m.
Proof. induction 1; cbn; congruence. Qed.
Lemma like_names db l fs : Forall2 (like db) l fs -> map cf_full fs = map fd_name l.
Proof. induction 1 as [|d f l fs (_ & E) F IH]; cbn [map]; congruence. Qed.
Lemma F2_imp {A B} (R Q : A -> B -> Prop) l m : (forall a b, R a b -> Q a b) -> Forall2 R l m -> Forall2 Q l m.
Proof. intros H. induction 1; constructor; auto. Qed.
Lemma init_step db defs : NoDup (map fd_name defs) -> forall todo done fd ft, defs = done ++ todo ->
  Forall2 (full db defs) done fd -> Forall2 (like db) todo ft -> Forall (fun f => cf_trig f = []) ft ->
  exists fs, init_triggers defs todo (fd ++ ft) = JOk fs /\ Forall2 (full db defs) defs fs.
Proof.
  intro N. induction todo as [|d todo IH]; intros done fd ft E FD FT TT.
  - inversion FT; subst. cbn [init_triggers]. exists (fd ++ []). split; [reflexivity|]. rewrite app_nil_r. now rewrite app_nil_r in *.
  - inversion FT as [|? f ? ft' LF FT2]; subst. inversion TT as [|? ? TF TT2]; subst. cbn [init_triggers].
    assert (FDL : Forall2 (like db) done fd) by (eapply F2_imp; [|exact FD]; intros a b (L & _); exact L).
    assert (ALL : Forall2 (like db) (done ++ d :: todo) (fd ++ f :: ft')) by (apply Forall2_app; assumption).
    assert (STEP : forall f', full db (done ++ d :: todo) d f' ->
      exists fs, init_triggers (done ++ d :: todo) todo (fd ++ f' :: ft') = JOk fs /\ Forall2 (full db (done ++ d :: todo)) (done ++ d :: todo) fs).
    { intros f' FF. change (fd ++ f' :: ft') with (fd ++ [f'] ++ ft'). rewrite app_assoc.
      apply (IH (done ++ [d])); [now rewrite <- app_assoc| |assumption|assumption]. apply Forall2_app; [assumption|]. constructor; [assumption|constructor]. }
    destruct (has_channel d) eqn:H.
    + assert (FF : find_full (fd_name d) (fd ++ f :: ft') = Some (length fd)).
      { apply (find_full_at _ _ _ f); [now rewrite nth_error_app2, Nat.sub_diag by lia|apply LF|]. now rewrite (like_names _ _ _ ALL). }
      rewrite FF. pose proof (F2_len _ _ _ ALL) as LL.
      destruct (trigger_positions_ok (done ++ d :: todo) (length (fd ++ f :: ft')) (fd_triggers d) N LL) as (t & TE & TA).
      rewrite TE, set_trig_mid. apply STEP. split; [exact LF|]. rewrite H. unfold with_trig. cbn [cf_trig]. rewrite TF. exact TA.
    + apply STEP. split; [exact LF|]. now rewrite H.
Qed.
Lemma init_ok db defs fs : NoDup (map fd_name defs) -> Forall2 (like db) defs fs -> Forall (fun f => cf_trig f = []) fs ->
  exists fs', init_triggers defs defs fs = JOk fs' /\ Forall2 (full db defs) defs fs'.
Proof. intros N L T. apply (init_step db defs N defs [] [] fs); auto. Qed.

(** ** The template *)
Fixpoint all_members (fs : list cfield) : outcome (list member) :=
  match fs with
  | [] => OK []
  | f :: fs' => obind (field_members f) (fun ms => obind (all_members fs') (fun r => OK (ms ++ r)))
  end.
Lemma template_step db all : NoDup (map cf_full all) -> forall defs fs pre, all = pre ++ fs -> Forall2 (like db) defs fs ->
  template_members defs all = all_members fs.
Proof.
  intro N. induction defs as [|d defs IH]; intros fs pre E F; inversion F as [|? f ? fs' LF F2]; subst; [reflexivity|].
  cbn [template_members all_members]. destruct LF as ((LN & LC & LD) & LFN). cbn [pair_of fst snd] in *.
  rewrite (find_full_at (fd_name d) _ (length pre) f); [|now rewrite nth_error_app2, Nat.sub_diag by lia|assumption|assumption].
  rewrite nth_error_app2, Nat.sub_diag by lia. cbn [nth_error]. rewrite <- LC.
  replace {| cf_path := cf_path f; cf_full := cf_full f; cf_conf := _; cf_chan := cf_chan f; cf_any := cf_any f; cf_trig := cf_trig f |} with f.
  2:{ destruct f as [a b [c1 c2 c3 c4 c5 c6] e g h]. reflexivity. }
  destruct (field_members f); cbn [obind]; [|reflexivity|reflexivity].
  rewrite (IH fs' (pre ++ [f])); [reflexivity|now rewrite <- app_assoc|assumption].
Qed.
Lemma all_members_neat fs : Forall (fun f => undotted (cf_path f) /\ unnamed f = false) fs ->
  all_members fs <> Aborts /\ forall ms, all_members fs = OK ms -> Forall (fun c => no_dot (m_name c) /\ neat c) ms.
Proof.
  induction 1 as [|f fs (U & N) F (I1 & I2)]; cbn [all_members].
  - split; [discriminate|]. intros ms E. inversion E. constructor.
  - destruct (field_members_neat f U N) as (A & B). destruct (field_members f) as [m| |]; cbn [obind]; [|split; [discriminate|intros; discriminate]|congruence].
    destruct (all_members fs) as [r| |]; cbn [obind]; [|split; [discriminate|intros; discriminate]|congruence].
    split; [discriminate|]. intros ms E. inversion E; subst. apply Forall_app. auto.
Qed.
Lemma worded_named db x f : worded x -> made db x f -> unnamed f = false.
Proof.
  intros W (N & C & _). specialize (W _ N). unfold unnamed. rewrite C. unfold name_empty.
  destruct (fc_type (snd x)); try reflexivity; cbn [In] in W; destruct (cf_path f) as [|c [|d p]]; try reflexivity; try (exfalso; apply W; auto; fail);
  (destruct (p_name c); [exfalso; apply W; auto|reflexivity]).
Qed.
Lemma record_neat : no_dot (m_name record_member) /\ neat record_member.
Proof. split; [vm_compute; intuition discriminate|]. apply neatb_ok. vm_compute. reflexivity. Qed.
Lemma create_ok db g : NoDup (map fd_name (gd_fields g)) -> Forall (fun d => makeable db (pair_of d) /\ worded (pair_of d)) (gd_fields g) ->
  exists fs, Forall2 (full db (gd_fields g)) (gd_fields g) fs /\
  create_group db g = JOk {| g_name := gd_name g; g_atomic := match gd_atomic g with Some false => false | _ => true end; g_fields := fs;
    g_type := match all_members fs with OK ms => match typedef_append (Mem tc_Struct [] (gd_id g) []) (record_member :: ms) with OK m => Some m | _ => None end | _ => None end |}.
Proof.
  intros N F. destruct (make_fields_ok db (gd_fields g)) as (fs & E & L & T); [eapply Forall_impl; [|exact F]; intros a (A & _); exact A|].
  destruct (init_ok db _ fs N L T) as (fs' & I & FF). exists fs'. split; [exact FF|]. unfold create_group. rewrite E, I.
  assert (L2 : Forall2 (like db) (gd_fields g) fs') by (eapply F2_imp; [|exact FF]; intros a b (A & _); exact A).
  unfold template. rewrite (template_step db fs' ) with (fs := fs') (pre := []); [|now rewrite (like_names _ _ _ L2)|reflexivity|exact L2].
  assert (K : Forall (fun f => undotted (cf_path f) /\ unnamed f = false) fs').
  { clear -F L2. induction L2 as [|d f ds fs (M & _) L IH]; [constructor|]. inversion F as [|? ? (_ & W) F2]; subst. constructor; [|auto].
    split; [|eapply worded_named; eauto]. destruct M as (M & _). eapply named_undotted; eauto. }
  destruct (all_members_neat _ K) as (A & B). destruct (all_members fs') as [ms| |]; cbn [obind]; [|reflexivity|congruence].
  assert (C : typedef_append (Mem tc_Struct [] (gd_id g) []) (record_member :: ms) <> Aborts).
  { apply append_neat; [vm_compute; split; congruence|split; constructor|]. constructor; [apply record_neat|auto]. }
  destruct (typedef_append _ _); [reflexivity|reflexivity|congruence].
Qed.
