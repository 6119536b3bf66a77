(** The type of a group. *)
From Coq Require Import String ZArith List Bool Lia ZifyBool ZifyNat Sorting.Permutation Sorting.Sorted.
From Verif Require Import Base BaseProofs WireModel TypeModel TextModel TextSpec TextProofs ValueModel MarkModel CopyModel NtModel
  TypeSpec TypeProofs TypeNameProofs TypeDefProofs NtSpec NtProofs NtProps GroupModel GroupSpec GroupProofs GroupProofs3 GroupProofs4 GroupProofs5 GroupProofs6.
Import ListNotations.
Local Open Scope Z_scope.

Lemma all_members_app a b ms : all_members (a ++ b) = OK ms <-> exists ma mb, all_members a = OK ma /\ all_members b = OK mb /\ ms = ma ++ mb.
Proof.
  revert ms. induction a as [|g a IH]; intro ms; cbn [app all_members].
  - split; [intro H; exists [], ms; auto|]. intros (ma & mb & E & H & ->). inversion E; subst. exact H.
  - destruct (field_members g) as [mg| |]; cbn [obind].
    2,3: split; [discriminate|intros (ma & mb & E & _); discriminate].
    split.
    + destruct (all_members (a ++ b)) as [r| |] eqn:R; cbn [obind]; intro E; try discriminate. inversion E; subst.
      destruct (proj1 (IH r) eq_refl) as (ma & mb & A & B & ->). exists (mg ++ ma), mb. rewrite A. cbn [obind]. split; [reflexivity|]. split; [exact B|apply app_assoc].
    + intros (ma & mb & A & B & ->). destruct (all_members a) as [x| |]; cbn [obind] in A; try discriminate. inversion A; subst.
      destruct (all_members (a ++ b)) as [r| |] eqn:R.
      * destruct (proj1 (IH r) eq_refl) as (m1 & m2 & A1 & B1 & ->). cbn [obind]. inversion A1; subst. rewrite B in B1. inversion B1; subst. now rewrite app_assoc.
      * exfalso. assert (X : Throws = OK (x ++ mb)) by (apply IH; eauto). discriminate.
      * exfalso. assert (X : Aborts = OK (x ++ mb)) by (apply IH; eauto). discriminate.
Qed.
Lemma all_members_one f : all_members [f] = field_members f.
Proof. cbn [all_members]. destruct (field_members f); cbn [obind]; rewrite ?app_nil_r; reflexivity. Qed.
Lemma has_path_app a b p : has_path (a ++ b) p <-> has_path a p \/ has_path b p.
Proof.
  induction a as [|c a IH]; cbn [app].
  - split; [auto|]. intros [H|H]; [inversion H; contradiction|exact H].
  - rewrite has_path_cons, (has_path_cons c a), IH. tauto.
Qed.
(** members of tidy fields which are apart from a path *)
Lemma tidy_paths db x f ms p : made db x f -> tidy x -> field_members f = OK ms -> has_path ms p ->
  exists path, named (fst x) path /\ meets (fc_type (snd x)) (names_of path) p.
Proof.
  intros (N & C & D) T E H. exists (cf_path f). split; [exact N|]. rewrite <- C. destruct (T _ N) as (T1 & T2). rewrite <- C in T1.
  eapply field_members_paths; eauto; [eapply named_undotted; eauto|].
  intros _ NE. destruct (cf_path f) as [|c [|d l]]; [reflexivity| |discriminate]. cbn in NE. destruct (p_name c); [congruence|discriminate].
Qed.
Lemma others_apart db xs fs ms p : Forall2 (made db) xs fs -> Forall tidy xs ->
  Forall (fun x => forall path, named (fst x) path -> ~ meets (fc_type (snd x)) (names_of path) p) xs ->
  all_members fs = OK ms -> ~ has_path ms p.
Proof.
  intro F. revert ms. induction F as [|x f xs fs M F IH]; intros ms T A E H.
  - inversion E; subst. inversion H; contradiction.
  - inversion T; subst. inversion A as [|? ? A1 A2]; subst. change (f :: fs) with ([f] ++ fs) in E.
    apply all_members_app in E as (m1 & m2 & E1 & E2 & ->). rewrite all_members_one in E1. apply has_path_app in H as [H|H]; [|eapply IH; eauto].
    destruct (tidy_paths _ _ _ _ _ M H2 E1 H) as (path & N & K). eapply A1; eauto.
Qed.
Lemma record_paths p : has_path [record_member] p -> starts [bs "record"] p.
Proof. intro H. apply has_path_single in H as (q & -> & _). exists q. reflexivity. Qed.
(** what a block of members puts at a path nothing else uses *)
Lemma block_at pre ms post r p : append_each (pre ++ ms ++ post) [] = Some r -> neat_list ms -> has_path ms p ->
  ~ has_path pre p -> ~ has_path post p -> member_at r p = member_at ms p.
Proof.
  intros E (ND & FN) H NP NQ.
  assert (S : exists m1 a m2, ms = m1 ++ a :: m2 /\ has_path [a] p /\ exists q, p = m_name a :: q).
  { clear -H. induction ms as [|a ms IH]; [inversion H; contradiction|]. apply has_path_cons in H as [H|H].
    - exists [], a, ms. split; [reflexivity|]. split; [exact H|]. apply has_path_single in H as (q & -> & _). eauto.
    - destruct (IH H) as (m1 & b & m2 & -> & K). exists (a :: m1), b, m2. split; [reflexivity|exact K]. }
  destruct S as (m1 & a & m2 & -> & HA & q & ->).
  assert (OUT : forall l, (forall b, In b l -> m_name b <> m_name a) -> ~ has_path l (m_name a :: q)).
  { intros l K X. inversion X; subst; eapply K; eauto. }
  rewrite map_app in ND. cbn [map] in ND. apply NoDup_remove in ND as (_ & ND). rewrite in_app_iff in ND.
  apply Forall_app in FN as (_ & FN). inversion FN as [|? ? (D & NA) FN2]; subst.
  rewrite <- app_assoc, app_assoc in E. cbn [app] in E.
  rewrite (unique_at (pre ++ m1) a (m2 ++ post) r (m_name a :: q)); [|exact E|exact NA|exact HA| |].
  - assert (M1 : forall b, In b m1 -> m_name b <> m_name a) by (intros b I X; apply ND; left; rewrite <- X; now apply in_map).
    cbn [member_at]. clear -M1. induction m1 as [|b m1 IH]; [cbn [app find]; now rewrite str_eqb_refl|]. cbn [app find]. 
    destruct (str_eqb (m_name b) (m_name a)) eqn:X; [apply str_eqb_eq in X; exfalso; eapply M1; [now left|exact X]|]. apply IH. intros c I. apply M1. now right.
  - rewrite has_path_app. intros [X|X]; [tauto|]. revert X. apply OUT. intros b I X; apply ND; left; rewrite <- X; now apply in_map.
  - rewrite has_path_app. intros [X|X]; [|tauto]. revert X. apply OUT. intros b I X; apply ND; right; rewrite <- X; now apply in_map.
Qed.
Lemma template_each id ms m : typedef_append (Mem tc_Struct [] id []) ms = OK m -> append_each ms [] = Some (m_children m) /\ m_code m = tc_Struct /\ m_id m = id.
Proof.
  unfold typedef_append. destruct (negb _); [discriminate|]. rewrite append_fold. cbn [m_children m_code m_name m_id].
  destruct (append_each ms []) as [cs|]; [|discriminate]. cbv zeta. destruct (build_tree _); [|discriminate]. intro E. inversion E; subst. auto.
Qed.
(** the part of the type a field makes *)
Lemma type_at db id xs fs x f xs' fs' ms m p mf :
  Forall2 (made db) xs fs -> made db x f -> Forall2 (made db) xs' fs' -> Forall tidy (xs ++ xs') ->
  all_members (fs ++ f :: fs') = OK ms -> typedef_append (Mem tc_Struct [] id []) (record_member :: ms) = OK m ->
  field_members f = OK mf -> neat_list mf -> has_path mf p -> apart (xs ++ xs') p ->
  member_at (m_children m) p = member_at mf p.
Proof.
  intros F M F' T E TA MF NL H (AR & _ & AO). apply Forall_app in T as (T1 & T2). apply Forall_app in AO as (A1 & A2).
  apply template_each in TA as (TA & _). apply all_members_app in E as (m1 & m2 & E1 & E2 & ->).
  change (f :: fs') with ([f] ++ fs') in E2. apply all_members_app in E2 as (m3 & m4 & E3 & E4 & ->). rewrite all_members_one, MF in E3. inversion E3; subst m3.
  apply (block_at (record_member :: m1) mf m4); [exact TA|exact NL|exact H| |].
  - rewrite has_path_cons. intros [X|X]; [apply AR; now apply record_paths|]. eapply (others_apart db xs fs m1); eauto.
  - eapply (others_apart db xs' fs' m4); eauto.
Qed.
(** leaves *)
Lemma enum_checked : match nt_enum with OK m => laid_out m "epics:nt/NTEnum:1.0" enum_fields | _ => False end.
Proof. destruct C81_enum as (m & E & L & _). rewrite E. exact L. Qed.
Lemma prim_codes : forallb (fun t => match t with DNoAccess => true | _ => existsb (Z.eqb (from_dbr t)) primitives end) all_dbr = true.
Proof. vm_compute. reflexivity. Qed.
Lemma from_dbr_prim t : t <> DNoAccess -> In (from_dbr t) primitives.
Proof.
  intro N. pose proof prim_codes as K. rewrite forallb_forall in K. specialize (K t (all_dbr_In t)). destruct t; try congruence;
  apply existsb_exists in K as (x & I & E); apply Z.eqb_eq in E; now rewrite E.
Qed.
Lemma no_access_throws b : nt_scalar tc_Null true true b true = Throws /\ nt_scalar (tc_arrayOf tc_Null) true true b true = Throws.
Proof. destruct b; vm_compute; auto. Qed.
Lemma channel_normative c m : channel_def c = OK m -> normative c m.
Proof.
  unfold channel_def, normative. destruct (channel_type true c) as [code|] eqn:T; [|discriminate]. apply channel_shows in T.
  unfold is_enum, is_string. destruct (match ch_type c with DEnum => true | _ => false end).
  - intro E. pose proof enum_checked as K. rewrite E in K. exact K.
  - intro E. exists code.
    assert (P : exists s, of_primitive code s).
    { destruct (shows_codes _ _ T) as (t & I & C & NA). destruct t eqn:TE.
      13:{ exfalso. destruct (no_access_throws (negb match ch_type c with DString => true | _ => false end)) as (X & Y). destruct C as [C|C]; rewrite C in E; cbn [from_dbr] in E; congruence. }
      all: exists (from_dbr t); rewrite TE; split; [apply from_dbr_prim; discriminate|exact C]. }
    destruct P as (s & P). exists s. split; [exact T|]. split; [exact P|].
    destruct (C81_scalar code s true true (negb match ch_type c with DString => true | _ => false end) true P) as (m' & E' & L & _).
    rewrite E in E'. inversion E'; subst m'. destruct (ch_type c); exact L.
Qed.
Definition shows_member (t : mtype) : Prop := In t [MScalar; MPlain; MAny; MConst].
Lemma normative_name c m n : normative c m -> normative c (Mem (m_code m) n (m_id m) (m_children m)).
Proof. destruct m as [a b d e]. unfold normative, laid_out. cbn. auto. Qed.
Lemma leaf_members db x f mf : made db x f -> worded x -> shows_member (fc_type (snd x)) -> field_members f = OK mf ->
  neat_list mf /\ has_path mf (names_of (cf_path f)) /\ exists m, member_at mf (names_of (cf_path f)) = Some m /\ member_of db x m /\ m_name m = p_name (leaf_comp (cf_path f)).
Proof.
  intros M W S E. assert (UN : unnamed f = false) by (eapply worded_named; eauto). destruct M as (N & C & D).
  pose proof (named_undotted _ _ N) as U. unfold field_members in E. unfold unnamed in UN. unfold member_of. rewrite C in E, UN.
  assert (LEAF : forall leaf, neat leaf -> m_name leaf = p_name (leaf_comp (cf_path f)) -> name_empty (cf_path f) = false ->
    place_members (cf_path f) [leaf] true = OK mf -> neat_list mf /\ has_path mf (names_of (cf_path f)) /\ member_at mf (names_of (cf_path f)) = Some leaf).
  { intros leaf NL NM NE PE. destruct (place_leaf _ _ _ NE U NL NM PE) as (K1 & K2 & K3 & (a & ->) & _). split; [|auto].
    split; [repeat constructor; auto|exact K1]. }
  destruct (fc_type (snd x)) eqn:T; try (exfalso; cbn in S; unfold shows_member in S; cbn in S; intuition discriminate).
  - rewrite UN in E. destruct (cf_chan f) as [c|] eqn:CC; [|discriminate].
    destruct (channel_def_ok c) as (D1 & D2). destruct (channel_def c) as [m| |] eqn:CD; cbn [obind] in E; try discriminate.
    destruct (LEAF (Mem (m_code m) (p_name (leaf_comp (cf_path f))) (m_id m) (m_children m))) as (A1 & A2 & A3); [|reflexivity|exact UN|exact E|].
    { specialize (D2 m eq_refl). destruct m; exact D2. }
    split; [exact A1|]. split; [exact A2|]. eexists. split; [exact A3|]. split; [|reflexivity]. exists c. split.
    + destruct (is_nil _); congruence.
    + apply normative_name. now apply channel_normative.
  - rewrite UN in E. destruct (cf_chan f) as [c|] eqn:CC; [|discriminate].
    destruct (channel_type true c) as [code|] eqn:CT; [|discriminate]. destruct (tc_valid code) eqn:V; [|discriminate]. apply channel_shows in CT.
    destruct (LEAF (Mem code (p_name (leaf_comp (cf_path f))) [] [])) as (A1 & A2 & A3); [|reflexivity|exact UN|exact E|].
    { apply neat_leaf. eapply code_valid; eauto. }
    split; [exact A1|]. split; [exact A2|]. eexists. split; [exact A3|]. split; [|reflexivity]. exists c, code. split; [destruct (is_nil _); congruence|]. cbn. auto.
  - rewrite UN in E. unfold new_member in E. destruct (member_validate _); cbn [obind] in E; [|discriminate].
    destruct (LEAF (Mem tc_Any (p_name (leaf_comp (cf_path f))) [] [])) as (A1 & A2 & A3); [|reflexivity|exact UN|exact E|].
    { apply neat_leaf. vm_compute. split; congruence. }
    split; [exact A1|]. split; [exact A2|]. eexists. split; [exact A3|]. cbn. auto.
  - destruct (fc_const (snd x)) as [v|] eqn:V; [|discriminate]. destruct (name_empty (cf_path f)) eqn:NE; [discriminate|].
    destruct (LEAF (Mem (src_code v) (p_name (leaf_comp (cf_path f))) [] [])) as (A1 & A2 & A3); [|reflexivity|reflexivity|exact E|].
    { apply neat_leaf. apply src_code_range. }
    split; [exact A1|]. split; [exact A2|]. eexists. split; [exact A3|]. split; [|reflexivity]. exists v. split; [reflexivity|]. cbn [m_code m_id m_children].
    split; [|auto]. intros code K. inversion K; reflexivity.
Qed.
