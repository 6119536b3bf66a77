(** Members made for a field, and the passes of creation. *)
From Coq Require Import String ZArith List Bool Lia ZifyBool ZifyNat Sorting.Permutation Sorting.Sorted.
From Verif Require Import Base BaseProofs WireModel TypeModel TextModel TextSpec TextProofs ValueModel MarkModel CopyModel NtModel
  TypeSpec TypeProofs TypeNameProofs TypeDefProofs NtSpec NtProofs GroupModel GroupSpec GroupProofs GroupProofs3 GroupProofs4.
Import ListNotations.
Local Open Scope Z_scope.

Lemma starts_nil p : starts [] p.
Proof. exists p. reflexivity. Qed.
Lemma starts_cons n p q : starts (n :: p) (n :: q) <-> starts p q.
Proof. split; intros (r & E); exists r; [inversion E; reflexivity|cbn; congruence]. Qed.

(** ** Nesting *)
Lemma wrap_spec rpath : forall ch ms, wrap_members rpath ch = OK ms -> Forall (fun c => ~ In dot (p_name c)) rpath ->
  Forall (fun c => no_dot (m_name c) /\ neat c) ch -> NoDup (map m_name ch) ->
  (Forall (fun c => no_dot (m_name c) /\ neat c) ms /\ NoDup (map m_name ms)) /\
  (forall p, has_path ms p -> starts p (names_of (rev rpath)) \/ exists r, p = names_of (rev rpath) ++ r /\ has_path ch r) /\
  (forall q, has_path ch q -> has_path ms (names_of (rev rpath) ++ q)) /\
  (forall q, q <> [] -> member_at ms (names_of (rev rpath) ++ q) = member_at ch q).
Proof.
  induction rpath as [|c rpath IH]; intros ch ms E D F N.
  - cbn [wrap_members] in E. inversion E; subst. cbn [rev names_of map app]. repeat split; auto.
    intros p H. right. exists p. auto.
  - cbn [wrap_members] in E. inversion D as [|? ? D1 D2]; subst.
    set (code := if is_indexed c then tc_StructA else tc_Struct) in *.
    unfold new_member in E. destruct (member_validate _); [|discriminate].
    assert (NM : neat (Mem code (p_name c) [] ch)).
    { apply neat_eq. split; [unfold code; destruct (is_indexed c); vm_compute; split; congruence|split; assumption]. }
    destruct (IH [Mem code (p_name c) [] ch] ms E D2) as (A & B & C1 & C2).
    { constructor; [|constructor]. split; assumption. }
    { repeat constructor. auto. }
    split; [exact A|].
    assert (NE : names_of (rev (c :: rpath)) = names_of (rev rpath) ++ [p_name c]) by (cbn [rev]; unfold names_of; now rewrite map_app).
    rewrite NE. split; [|split].
    + intros p H. destruct (B p H) as [(r & X)|(r & -> & HX)].
      * left. exists (r ++ [p_name c]). rewrite X. now rewrite app_assoc.
      * apply has_path_single in HX as (q & -> & [-> |HY]); cbn [m_name].
        -- left. exists []. now rewrite app_nil_r.
        -- right. exists q. split; [now rewrite <- app_assoc|exact HY].
    + intros q H. rewrite <- app_assoc. apply C1. apply has_path_single. exists q. auto.
    + intros q Q. rewrite <- app_assoc. rewrite C2 by discriminate. cbn [app member_at find m_name m_children]. rewrite str_eqb_refl.
      destruct q; [congruence|reflexivity].
Qed.
(** a single member placed at the end of a path *)
Lemma rev_leaf (path : list comp) : path <> [] -> path = rev (tl (rev path)) ++ [leaf_comp path].
Proof.
  intro N. destruct (rev path) as [|c r] eqn:E.
  - exfalso. apply N. rewrite <- (rev_involutive path). now rewrite E.
  - assert (P : path = rev r ++ [c]) by (rewrite <- (rev_involutive path), E; reflexivity).
    cbn [tl]. rewrite P at 1. f_equal. f_equal. unfold leaf_comp. rewrite P. symmetry. apply last_last.
Qed.
Definition undotted (path : list comp) : Prop := Forall (fun c => ~ In dot (p_name c)) path.
Lemma place_leaf path leaf ms : name_empty path = false -> undotted path -> neat leaf -> m_name leaf = p_name (leaf_comp path) ->
  place_members path [leaf] true = OK ms ->
  Forall (fun c => no_dot (m_name c) /\ neat c) ms /\ has_path ms (names_of path) /\ member_at ms (names_of path) = Some leaf /\
  (exists a, ms = [a]) /\
  (forall p, has_path ms p -> starts p (names_of path) \/ exists r, p = names_of path ++ r /\ (r = [] \/ has_path (m_children leaf) r)).
Proof.
  intros NE U N NM E. unfold place_members in E. rewrite NE in E.
  assert (PN : path <> []) by (intro; subst; discriminate).
  pose proof (rev_leaf path PN) as RL. assert (U2 := U). rewrite RL in U2. apply Forall_app in U2 as (U2 & U3). inversion U3; subst.
  assert (UR : undotted (tl (rev path))) by (unfold undotted; rewrite <- (rev_involutive (tl (rev path))); now apply Forall_rev).
  destruct (wrap_spec _ _ _ E UR) as ((A & A2) & B & C1 & C2).
  { constructor; [|constructor]. split; [now rewrite NM|assumption]. }
  { repeat constructor. auto. }
  assert (NP : names_of path = names_of (rev (tl (rev path))) ++ [m_name leaf]).
  { rewrite RL at 1. unfold names_of. rewrite map_app. cbn [map]. now rewrite NM. }
  split; [exact A|]. split.
  { rewrite NP. apply C1. apply has_path_single. exists []. auto. }
  split.
  { rewrite NP. rewrite C2 by discriminate. cbn [member_at find]. rewrite str_eqb_refl. reflexivity. }
  split.
  { clear -E. assert (G : forall rp ch ms, wrap_members rp ch = OK ms -> (exists a, ch = [a]) -> exists a, ms = [a]).
    { induction rp as [|c rp IH]; intros ch ms0 E0 X; cbn [wrap_members] in E0; [inversion E0; subst; exact X|].
      unfold new_member in E0. destruct (member_validate _); [|discriminate]. eapply IH; eauto. }
    eapply G; eauto. }
  intros p H. destruct (B p H) as [(r & X)|(r & -> & HX)].
  - left. rewrite NP. exists (r ++ [m_name leaf]). rewrite X. now rewrite app_assoc.
  - apply has_path_single in HX as (q & -> & HY). right. exists q. split; [|exact HY]. rewrite NP. now rewrite <- app_assoc.
Qed.

(** ** Types of channels *)
Definition all_dbr : list dbr := [DChar; DUChar; DShort; DUShort; DEnum; DLong; DULong; DInt64; DUInt64; DFloat; DDouble; DString; DNoAccess].
Lemma all_dbr_In t : In t all_dbr.
Proof. destruct t; cbn; tauto. Qed.
Lemma channel_shows c code : channel_type true c = Some code <-> shows c code.
Proof.
  unfold channel_type. cbn [andb]. split.
  - destruct (ch_link c) eqn:L; [discriminate|]. cbv zeta. destruct (Z.eqb_spec (ch_elems c) 1) as [E|E]; cbn [negb].
    + rewrite andb_false_r. cbn [andb]. intro H. inversion H; subst. now constructor.
    + rewrite andb_true_r. destruct (is_char (ch_type c)) eqn:C; cbn [andb].
      * assert (T : ch_type c = DChar) by (destruct (ch_type c); try discriminate; reflexivity).
        destruct (ch_text c) eqn:X; intro H; inversion H; subst.
        -- now constructor.
        -- apply sh_many; auto. intros (_ & ?). congruence.
      * intro H. inversion H; subst. apply sh_many; auto. intros (T & _). rewrite T in C. discriminate.
  - intros [c0 T E X L|c0 E L|c0 E L N]; rewrite L; cbv zeta.
    + rewrite T, X. apply Z.eqb_neq in E. rewrite E. reflexivity.
    + rewrite E. cbn [negb Z.eqb]. now rewrite andb_false_r.
    + apply Z.eqb_neq in E. rewrite E. cbn [negb]. destruct (is_char (ch_type c0) && true && ch_text c0) eqn:B; [|reflexivity].
      exfalso. apply N. rewrite andb_true_r in B. apply andb_true_iff in B as (B1 & B2). split; [|exact B2]. destruct (ch_type c0); try discriminate. reflexivity.
Qed.
Lemma shows_codes c code : shows c code -> exists t, In t all_dbr /\ (code = from_dbr t \/ code = tc_arrayOf (from_dbr t)) /\
  (ch_type c <> DNoAccess -> t <> DNoAccess).
Proof.
  intros [c0 T E X L|c0 E L|c0 E L N].
  - exists DString. split; [apply all_dbr_In|]. split; [left; reflexivity|congruence].
  - exists (ch_type c0). split; [apply all_dbr_In|]. auto.
  - exists (ch_type c0). split; [apply all_dbr_In|]. auto.
Qed.
Definition code_list : list Z := map from_dbr all_dbr ++ map (fun t => tc_arrayOf (from_dbr t)) all_dbr.
Lemma shows_list c code : shows c code -> In code code_list.
Proof.
  intro H. destruct (shows_codes _ _ H) as (t & I & E & _). unfold code_list. apply in_app_iff.
  destruct E as [-> | ->]; [left; now apply in_map|right]. apply in_map_iff. exists t. auto.
Qed.
Definition def_ok (r : outcome member) : bool := match r with OK m => neatb m | Throws => true | Aborts => false end.
Lemma nt_defs_ok : forallb (fun code => def_ok (nt_scalar code true true true true) && def_ok (nt_scalar code true true false true)
                                        && (negb (tc_valid code) || ((0 <=? code) && (code <? 256)))) code_list
  && def_ok nt_enum = true.
Proof. vm_compute. reflexivity. Qed.
Lemma channel_def_ok c : channel_def c <> Aborts /\ forall m, channel_def c = OK m -> neat m.
Proof.
  unfold channel_def. pose proof nt_defs_ok as K. apply andb_true_iff in K as (K1 & K2). rewrite forallb_forall in K1.
  destruct (channel_type true c) as [code|] eqn:E; [|split; [discriminate|intros; discriminate]].
  apply channel_shows in E. specialize (K1 _ (shows_list _ _ E)). apply andb_true_iff in K1 as (K1 & _). apply andb_true_iff in K1 as (K3 & K4).
  destruct (is_enum (ch_type c)).
  - unfold def_ok in K2. destruct nt_enum; try discriminate; split; try discriminate. intros m0 H. inversion H; subst. now apply neatb_ok.
  - destruct (is_string (ch_type c)); cbn [negb].
    + unfold def_ok in K4. destruct (nt_scalar code true true false true); try discriminate; (split; [discriminate|]); intros m0 H; inversion H; subst. now apply neatb_ok.
    + unfold def_ok in K3. destruct (nt_scalar code true true true true); try discriminate; (split; [discriminate|]); intros m0 H; inversion H; subst. now apply neatb_ok.
Qed.

(** ** The members of one field *)
Lemma meta_neat : neat (Mem tc_Struct [] [] meta_members).
Proof. apply neatb_ok. vm_compute. reflexivity. Qed.
Lemma src_code_range p : 0 <= src_code p < 256.
Proof. destruct p; cbn [src_code]; vm_compute; split; congruence. Qed.
Lemma place_not_abort path leaf b : place_members path leaf b <> Aborts.
Proof.
  unfold place_members. destruct (name_empty path); [discriminate|].
  generalize (if b then tl (rev path) else rev path). intro l. revert leaf.
  induction l as [|c l IH]; intro leaf; cbn [wrap_members]; [discriminate|]. unfold new_member. destruct (member_validate _); [apply IH|discriminate].
Qed.
Lemma undotted_rev path : undotted path -> undotted (rev path).
Proof. apply Forall_rev. Qed.
(** fields named "[n]" have no name: they are refused by an assert *)
Definition unnamed (f : cfield) : bool :=
  match fc_type (cf_conf f) with MScalar | MPlain | MAny => name_empty (cf_path f) | _ => false end.
Lemma leaf_undotted path : undotted path -> no_dot (p_name (leaf_comp path)).
Proof.
  intro U. destruct path as [|c path]; [intros []|]. assert (N : c :: path <> []) by discriminate. rewrite (rev_leaf _ N) in U.
  apply Forall_app in U as (_ & U). now inversion U.
Qed.
Lemma neat_leaf code name id : 0 <= code < 256 -> neat (Mem code name id []).
Proof. intro. apply neat_eq. split; [assumption|split; constructor]. Qed.
Lemma struct_range b : 0 <= (if b : bool then tc_StructA else tc_Struct) < 256.
Proof. destruct b; vm_compute; split; congruence. Qed.
Lemma hd_undotted path : undotted path -> no_dot (p_name (hd no_comp path)).
Proof. intro U. destruct path; [intros []|]. now inversion U. Qed.
Lemma code_valid c code : shows c code -> tc_valid code = true -> 0 <= code < 256.
Proof.
  intros S V. pose proof nt_defs_ok as K. apply andb_true_iff in K as (K1 & _). rewrite forallb_forall in K1.
  specialize (K1 _ (shows_list _ _ S)). apply andb_true_iff in K1 as (_ & K1). rewrite V in K1. cbn [negb orb] in K1. lia.
Qed.
Lemma nodup_one (m : member) : NoDup (map m_name [m]).
Proof. repeat constructor. auto. Qed.
Lemma place_neat path leaf b ms : undotted path -> Forall (fun c => no_dot (m_name c) /\ neat c) leaf -> NoDup (map m_name leaf) ->
  place_members path leaf b = OK ms -> Forall (fun c => no_dot (m_name c) /\ neat c) ms.
Proof.
  intros U F N E. unfold place_members in E. destruct (name_empty path); [inversion E; subst; exact F|].
  eapply wrap_spec in E; eauto; [apply E|]. pose proof (undotted_rev _ U) as UR. destruct b; [|exact UR].
  unfold undotted in *. destruct (rev path); [constructor|]. now inversion UR.
Qed.
Lemma field_members_neat f : undotted (cf_path f) -> unnamed f = false ->
  field_members f <> Aborts /\ forall ms, field_members f = OK ms -> Forall (fun c => no_dot (m_name c) /\ neat c) ms.
Proof.
  intros U NN. unfold unnamed in NN. unfold field_members. pose proof (leaf_undotted _ U) as LU.
  destruct (fc_type (cf_conf f)); try rewrite NN.
  - destruct (cf_chan f) as [c|]; [|split; [discriminate|intros; discriminate]].
    destruct (channel_def_ok c) as (D1 & D2). destruct (channel_def c) as [m| |]; cbn [obind]; [|split; [discriminate|intros; discriminate]|congruence].
    split; [apply place_not_abort|]. intros ms E. eapply place_neat; [exact U| |apply nodup_one|exact E]. constructor; [|constructor].
    cbn [m_name]. split; [exact LU|]. specialize (D2 m eq_refl). destruct m. exact D2.
  - destruct (cf_chan f) as [c|]; [|split; [discriminate|intros; discriminate]].
    destruct (channel_type true c) as [code|] eqn:CT; [|split; [discriminate|intros; discriminate]].
    destruct (tc_valid code) eqn:V; [|split; [discriminate|intros; discriminate]].
    split; [apply place_not_abort|]. intros ms E. eapply place_neat; [exact U| |apply nodup_one|exact E]. constructor; [|constructor].
    cbn [m_name]. split; [exact LU|]. apply neat_leaf. apply channel_shows in CT. eapply code_valid; eauto.
  - unfold new_member. destruct (member_validate _); cbn [obind]; [|split; [discriminate|intros; discriminate]].
    split; [apply place_not_abort|]. intros ms E. eapply place_neat; [exact U| |apply nodup_one|exact E]. constructor; [|constructor].
    cbn [m_name]. split; [exact LU|]. apply neat_leaf. vm_compute. split; congruence.
  - split; [apply place_not_abort|]. intros ms E. pose proof meta_neat as M. apply neat_eq in M as (_ & M2 & M1). eapply place_neat; eauto.
  - split; [discriminate|]. intros ms E. inversion E. constructor.
  - unfold new_member. destruct (member_validate _); cbn [obind]; [|split; [discriminate|intros; discriminate]].
    split; [apply place_not_abort|]. intros ms E. eapply place_neat; [exact U| |apply nodup_one|exact E]. constructor; [|constructor].
    cbn [m_name]. split; [now apply hd_undotted|]. apply neat_leaf. apply struct_range.
  - destruct (fc_const (cf_conf f)) as [p|]; [|split; [discriminate|intros; discriminate]].
    destruct (name_empty (cf_path f)); [split; [discriminate|intros; discriminate]|].
    split; [apply place_not_abort|]. intros ms E. eapply place_neat; [exact U| |apply nodup_one|exact E]. constructor; [|constructor].
    cbn [m_name]. split; [exact LU|]. apply neat_leaf. apply src_code_range.
Qed.
(** where the members of a field are *)
Lemma meta_paths p : has_path meta_members p -> starts p [bs "alarm"] \/ starts p [bs "timeStamp"] \/ starts [bs "alarm"] p \/ starts [bs "timeStamp"] p.
Proof.
  intro H. apply has_path_cons in H as [H|H]; apply has_path_single in H as (q & -> & _).
  - right; right; left. exists q. reflexivity.
  - right; right; right. exists q. reflexivity.
Qed.
Lemma name_empty_cases path : undotted path -> name_empty path = true -> path = [] \/ exists c, path = [c] /\ p_name c = [].
Proof. unfold name_empty. destruct path as [|c [|d path]]; intros _ H; [now left| |discriminate]. right. exists c. split; [reflexivity|]. destruct (p_name c); [reflexivity|discriminate]. Qed.
Lemma field_members_paths f ms p : undotted (cf_path f) ->
  (fc_type (cf_conf f) = MStructure -> length (cf_path f) = 1%nat) ->
  (fc_type (cf_conf f) = MMeta -> name_empty (cf_path f) = true -> cf_path f = []) ->
  field_members f = OK ms -> has_path ms p -> meets (fc_type (cf_conf f)) (names_of (cf_path f)) p.
Proof.
  intros U S MT E H. pose proof (leaf_undotted _ U) as LU. unfold field_members in E. unfold meets.
  assert (LEAF : forall leaf, neat leaf -> m_name leaf = p_name (leaf_comp (cf_path f)) -> name_empty (cf_path f) = false ->
    place_members (cf_path f) [leaf] true = OK ms -> starts p (names_of (cf_path f)) \/ starts (names_of (cf_path f)) p).
  { intros leaf NL NM NE PE. destruct (place_leaf _ _ _ NE U NL NM PE) as (_ & _ & _ & _ & K). destruct (K p H) as [X|(r & X & _)]; [now left|right; exists r; exact X]. }
  destruct (fc_type (cf_conf f)) eqn:T.
  - destruct (name_empty (cf_path f)) eqn:NE; [discriminate|]. destruct (cf_chan f) as [c|]; [|discriminate].
    destruct (channel_def_ok c) as (D1 & D2). destruct (channel_def c) as [m| |]; cbn [obind] in E; try discriminate.
    eapply LEAF; [| |reflexivity|exact E]; [specialize (D2 m eq_refl); destruct m; exact D2|reflexivity].
  - destruct (name_empty (cf_path f)) eqn:NE; [discriminate|]. destruct (cf_chan f) as [c|]; [|discriminate].
    destruct (channel_type true c) as [code|] eqn:CT; [|discriminate]. destruct (tc_valid code) eqn:V; [|discriminate].
    eapply LEAF; [| |reflexivity|exact E]; [|reflexivity]. apply neat_leaf. apply channel_shows in CT. eapply code_valid; eauto.
  - destruct (name_empty (cf_path f)) eqn:NE; [discriminate|]. unfold new_member in E. destruct (member_validate _); cbn [obind] in E; [|discriminate].
    eapply LEAF; [| |reflexivity|exact E]; [|reflexivity]. apply neat_leaf. vm_compute. split; congruence.
  - unfold place_members in E. destruct (name_empty (cf_path f)) eqn:NE.
    + rewrite (MT eq_refl eq_refl). inversion E; subst. cbn [names_of map app]. now apply meta_paths.
    + pose proof meta_neat as M. apply neat_eq in M as (_ & M2 & M1).
      destruct (wrap_spec _ _ _ E (undotted_rev _ U) M1 M2) as (_ & B & _). rewrite rev_involutive in B.
      destruct (B p H) as [(r & X)|(r & -> & HX)].
      * left. exists (r ++ [bs "alarm"]). rewrite X. now rewrite app_assoc.
      * destruct (meta_paths _ HX) as [(q & X)|[(q & X)|[(q & X)|(q & X)]]].
        -- left. exists q. rewrite X at 1. now rewrite app_assoc.
        -- right; left. exists q. rewrite X at 1. now rewrite app_assoc.
        -- right; right; left. exists q. rewrite X. now rewrite app_assoc.
        -- right; right; right. exists q. rewrite X. now rewrite app_assoc.
  - inversion E; subst. inversion H; contradiction.
  - specialize (S eq_refl). destruct (cf_path f) as [|c [|d l]] eqn:PE; try discriminate.
    unfold new_member in E. destruct (member_validate _); cbn [obind] in E; [|discriminate].
    assert (ms = [Mem (if is_indexed (leaf_comp [c]) then tc_StructA else tc_Struct) (cf_name f) (fc_id (cf_conf f)) []]).
    { unfold place_members in E. destruct (name_empty [c]); [|cbn [rev app tl wrap_members] in E]; now inversion E. }
    subst ms. apply has_path_single in H as (q & -> & [-> |H]).
    + cbn [m_name]. unfold cf_name. rewrite PE. cbn. exists []. reflexivity.
    + cbn in H. inversion H; contradiction.
  - destruct (fc_const (cf_conf f)) as [v|]; [|discriminate]. destruct (name_empty (cf_path f)) eqn:NE; [discriminate|].
    eapply LEAF; [| |reflexivity|exact E]; [|reflexivity]. apply neat_leaf. apply src_code_range.
Qed.
