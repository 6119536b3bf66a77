(** Merging members, and the creation of groups. *)
From Coq Require Import String ZArith List Bool Lia ZifyBool ZifyNat Sorting.Permutation Sorting.Sorted.
From Verif Require Import Base BaseProofs WireModel TypeModel TextModel TextSpec TextProofs ValueModel MarkModel CopyModel NtModel
  TypeSpec TypeProofs TypeNameProofs TypeDefProofs NtSpec NtProofs GroupModel GroupSpec GroupProofs GroupProofs3.
Import ListNotations.
Local Open Scope Z_scope.

(** ** Members without duplicate or dotted names *)
Fixpoint neat (m : member) : Prop :=
  match m with
  | Mem code name id cs => 0 <= code < 256 /\ NoDup (map m_name cs) /\ fold_right (fun c Q => (no_dot (m_name c) /\ neat c) /\ Q) True cs
  end.
Definition neat_list (cs : list member) : Prop := NoDup (map m_name cs) /\ Forall (fun c => no_dot (m_name c) /\ neat c) cs.
Lemma neat_eq code name id cs : neat (Mem code name id cs) <-> 0 <= code < 256 /\ neat_list cs.
Proof.
  cbn [neat]. unfold neat_list. assert (E : fold_right (fun c Q => (no_dot (m_name c) /\ neat c) /\ Q) True cs <-> Forall (fun c => no_dot (m_name c) /\ neat c) cs).
  { induction cs as [|c cs IH]; cbn [fold_right]; split; intro H; auto; [constructor|inversion H; subst]; try tauto. }
  rewrite E. tauto.
Qed.
Fixpoint neatb (m : member) : bool :=
  match m with
  | Mem code name id cs => (0 <=? code) && (code <? 256)
      && (fix nodup (l : list member) : bool := match l with [] => true | c :: l' => negb (existsb (fun d => str_eqb (m_name c) (m_name d)) l') && nodup l' end) cs
      && forallb (fun c => negb (existsb (fun x => x =? dot) (m_name c)) && neatb c) cs
  end.
Lemma neatb_ok m : neatb m = true -> neat m.
Proof.
  induction m as [code name id cs IH] using member_ind'. cbn [neatb]. rewrite !andb_true_iff. intros (((A & B) & C) & D).
  apply neat_eq. split; [lia|]. split.
  - clear -C. induction cs as [|c cs IHc]; cbn [map]; [constructor|]. apply andb_true_iff in C as [C1 C2].
    constructor; [|auto]. intro I. apply in_map_iff in I as (d & E & I). apply negb_true_iff in C1.
    assert (X : existsb (fun d => str_eqb (m_name c) (m_name d)) cs = true) by (apply existsb_exists; exists d; split; [exact I|apply str_eqb_eq; congruence]).
    congruence.
  - rewrite forallb_forall in D. rewrite Forall_forall in *. intros c I. specialize (D c I). apply andb_true_iff in D as [D1 D2].
    split; [|auto]. intro J. apply negb_true_iff in D1.
    assert (X : existsb (fun x => x =? dot) (m_name c) = true) by (apply existsb_exists; exists dot; split; [exact J|apply Z.eqb_refl]). congruence.
Qed.
Lemma neat_asserts m : neat m -> build_tree m <> None.
Proof.
  intro N. assert (C : codes_ok m /\ all_names no_dot m /\ distinct_struct_names m).
  { induction m as [code name id cs IH] using member_ind'. apply neat_eq in N as (B & D & F).
    rewrite codes_children, all_names_children, distinct_children. rewrite Forall_forall in IH, F.
    split; [split; [exact B|]|split; [|split; [intros _; exact D|]]]; apply Forall_forall; intros c I; destruct (F c I) as (F1 & F2);
      destruct (IH c I F2) as (I1 & I2 & I3); auto. }
  destruct C as (C1 & C2 & C3). apply (build_asserts_names m C1 C2) in C3. unfold build_tree. now rewrite C3.
Qed.
Lemma merge_neat a : neat a -> no_dot (m_name a) -> forall cs r, neat_list cs -> append_child a cs = Some r ->
  neat_list r /\ (forall n, In n (map m_name r) -> n = m_name a \/ In n (map m_name cs)).
Proof.
  induction a as [code name id gs IH] using member_ind'. intros N DN. apply neat_eq in N as (B & ND & F).
  induction cs as [|c cs IHc]; intros r NL E.
  - rewrite append_child_nil in E. inversion E; subst. split.
    + split; [repeat constructor; auto|]. constructor; [|constructor]. split; [exact DN|]. apply neat_eq. repeat split; auto; lia.
    + intros n [<-|[]]. now left.
  - rewrite append_child_cons in E. destruct NL as (NC & FC). cbn [map] in NC. inversion NC as [|? ? NC1 NC2]; inversion FC as [|? ? (DC & NCc) FC2]; subst.
    destruct (str_eqb (m_name c) (m_name (Mem code name id gs))) eqn:EN.
    + destruct (merge_into _ c) as [c'|] eqn:M; [|discriminate]. inversion E; subst r. apply str_eqb_eq in EN.
      unfold merge_into in M. destruct (negb _); [discriminate|]. cbn [m_children m_code m_id] in M.
      destruct (append_each gs (m_children c)) as [cs2|] eqn:AE; [|discriminate]. inversion M; subst c'.
      assert (NL2 : neat_list cs2).
      { destruct c as [cc cn ci ccs]. cbn [m_children] in AE. apply neat_eq in NCc as (_ & NLc). clear -IH F AE NLc.
        revert ccs AE NLc. induction gs as [|g gs IHg]; intros acc AE NLc; cbn [append_each] in AE; [congruence|].
        fold append_each in AE. destruct (append_child g acc) as [acc'|] eqn:AC; [|discriminate].
        inversion IH as [|? ? H1 H2]; inversion F as [|? ? (D1 & D2) F2]; subst.
        apply (IHg H2 F2 acc' AE). eapply H1; eauto. }
      split.
      * split; [cbn [map m_name]; constructor; auto|]. constructor; [|assumption]. cbn [m_name]. split; [assumption|].
        apply neat_eq. split; auto.
      * intros n I. cbn [map m_name In] in *. tauto.
    + destruct (append_child _ cs) as [r'|] eqn:AC; [|discriminate]. inversion E; subst r. apply str_eqb_neq in EN.
      destruct (IHc r' (conj NC2 FC2) eq_refl) as ((N1 & N2) & K). split.
      * split; [|constructor; auto]. cbn [map]. constructor; [|assumption]. intro I. destruct (K _ I) as [X|X]; [congruence|tauto].
      * intros n I. cbn [map In] in *. destruct I as [<-|I]; [tauto|]. destruct (K _ I); tauto.
Qed.
Lemma merge_all_neat gs : Forall (fun c => no_dot (m_name c) /\ neat c) gs -> forall cs r, neat_list cs -> append_each gs cs = Some r -> neat_list r.
Proof.
  induction 1 as [|g gs (D & N) F IH]; intros cs r NL E; cbn [append_each] in E; [congruence|]. fold append_each in E.
  destruct (append_child g cs) as [cs'|] eqn:AC; [|discriminate]. apply (IH cs'); [|exact E]. eapply merge_neat; eauto.
Qed.
Lemma append_fold gs : forall acc, fold_left (fun acc a => match acc with Some cs => append_child a cs | None => None end) gs acc =
  match acc with Some cs => append_each gs cs | None => None end.
Proof. induction gs as [|a l IH]; intros [cs|]; cbn [fold_left append_each]; rewrite ?IH; reflexivity. Qed.
Lemma append_neat top gs : 0 <= m_code top < 256 -> neat_list (m_children top) -> Forall (fun c => no_dot (m_name c) /\ neat c) gs -> typedef_append top gs <> Aborts.
Proof.
  intros C N F. unfold typedef_append. destruct (negb _); [discriminate|]. rewrite append_fold.
  destruct (append_each gs (m_children top)) as [cs|] eqn:E; [|discriminate]. cbv zeta.
  destruct (build_tree _) eqn:B; [discriminate|]. exfalso. eapply neat_asserts; [|exact B]. apply neat_eq. split; [exact C|].
  eapply merge_all_neat; eauto.
Qed.

(** ** What is at a path *)
Lemma member_at_has cs p m : member_at cs p = Some m -> has_path cs p.
Proof.
  revert cs. induction p as [|n p IH]; intros cs E; [discriminate|]. cbn [member_at] in E.
  destruct (find _ cs) as [c|] eqn:F; [|discriminate]. apply find_some in F as (I & EN). apply str_eqb_eq in EN. subst n.
  destruct p as [|n2 p]; [now apply hp_here|]. cbn [is_nil] in E. apply hp_below; auto.
Qed.
Lemma member_at_none cs p : ~ has_path cs p -> member_at cs p = None.
Proof. intro H. destruct (member_at cs p) eqn:E; [|reflexivity]. exfalso. apply H. eapply member_at_has; eauto. Qed.
Definition put_at (a : member) : Prop := forall cs r p, append_child a cs = Some r ->
  (~ has_path [a] p -> member_at r p = member_at cs p) /\
  (neat a -> has_path [a] p -> ~ has_path cs p -> member_at r p = member_at [a] p).
Lemma put_each gs : Forall put_at gs -> forall cs r p, append_each gs cs = Some r ->
  (~ has_path gs p -> member_at r p = member_at cs p) /\
  (neat_list gs -> has_path gs p -> ~ has_path cs p -> member_at r p = member_at gs p).
Proof.
  induction 1 as [|g gs P F IH]; intros cs r p E; cbn [append_each] in E.
  - inversion E; subst. split; [auto|]. intros _ X. inversion X; contradiction.
  - fold append_each in E. destruct (append_child g cs) as [cs'|] eqn:AC; [|discriminate].
    destruct (P cs cs' p AC) as (P1 & P2). destruct (IH cs' r p E) as (I1 & I2). split.
    + intro N. rewrite has_path_cons in N. rewrite I1, P1 by tauto. reflexivity.
    + intros (ND & FN) H NC. rewrite has_path_cons in H. inversion FN as [|? ? (D & NG) FN2]; subst. cbn [map] in ND. inversion ND as [|? ? ND1 ND2]; subst.
      destruct p as [|n p]; [reflexivity|].
      assert (OTHER : forall n p, has_path [g] (n :: p) -> ~ has_path gs (n :: p)).
      { intros n' p' X Y. apply has_path_single in X as (q & X & _). inversion X; subst. apply ND1.
        inversion Y; subst; rewrite <- ?H1, <- ?H2 in *; match goal with I : In ?c gs, E : m_name ?c = _ |- _ => rewrite <- E; now apply in_map | _ => idtac end;
        match goal with I : In ?c gs |- _ => apply in_map_iff; exists c; split; congruence end. }
      destruct H as [H|H].
      * rewrite I1 by (now apply OTHER). rewrite P2 by assumption. cbn [member_at find].
        apply has_path_single in H as (q & X & _). inversion X; subst. now rewrite str_eqb_refl.
      * assert (NG2 : ~ has_path [g] (n :: p)) by (intro X; now apply (OTHER n p)).
        rewrite I2; [|split; assumption|assumption|].
        2:{ destruct (step_ok_all g cs cs' AC) as (_ & S). rewrite S. tauto. }
        cbn [member_at find]. destruct (str_eqb (m_name g) n) eqn:EN; [|reflexivity]. apply str_eqb_eq in EN. subst n.
        exfalso. apply ND1. inversion H; subst; apply in_map_iff; eauto.
Qed.
Lemma put_at_all a : put_at a.
Proof.
  induction a as [code name id gs IH] using member_ind'. intros cs. 
  induction cs as [|c cs IHc]; intros r p E.
  - rewrite append_child_nil in E. inversion E; subst. split; [|auto]. intro N. rewrite member_at_none by assumption.
    now destruct p.
  - rewrite append_child_cons in E. destruct (str_eqb (m_name c) (m_name (Mem code name id gs))) eqn:EN.
    + destruct (merge_into _ c) as [c'|] eqn:M; [|discriminate]. inversion E; subst r. apply str_eqb_eq in EN. cbn [m_name] in EN.
      unfold merge_into in M. destruct (negb _); [discriminate|]. cbn [m_children m_code m_id] in M.
      destruct (append_each gs (m_children c)) as [cs2|] eqn:AE; [|discriminate]. inversion M; subst c'.
      destruct p as [|n p]; [split; reflexivity|]. cbn [member_at find m_name m_children]. rewrite EN.
      destruct (str_eqb name n) eqn:EM.
      * apply str_eqb_eq in EM. subst n. destruct p as [|n2 p].
        -- split.
           ++ intro N. exfalso. apply N. apply has_path_single. exists []. auto.
           ++ intros _ _ N. exfalso. apply N. rewrite <- EN. apply hp_here. now left.
        -- cbn [is_nil]. destruct (put_each gs IH (m_children c) cs2 (n2 :: p) AE) as (P1 & P2). split.
           ++ intro N. apply P1. intro H. apply N. apply has_path_single. eexists. split; [reflexivity|]. now right.
           ++ intros NE H N. apply neat_eq in NE as (_ & NL). apply P2; [exact NL| |].
              ** apply has_path_single in H as (q & X & H). inversion X; subst. destruct H as [H|H]; [discriminate|exact H].
              ** intro X. apply N. rewrite <- EN. apply hp_below; [now left|exact X].
      * apply str_eqb_neq in EM. split; [reflexivity|]. intros _ H. apply has_path_single in H as (q & X & _). inversion X; subst. now elim EM.
    + destruct (append_child _ cs) as [r'|] eqn:AC; [|discriminate]. inversion E; subst r. apply str_eqb_neq in EN.
      destruct p as [|n p]; [split; reflexivity|]. destruct (IHc r' (n :: p) eq_refl) as (I1 & I2). cbn [member_at find] in *.
      destruct (str_eqb (m_name c) n) eqn:EM.
      * apply str_eqb_eq in EM. subst n. split; [reflexivity|]. intros _ H. apply has_path_single in H as (q & X & _). inversion X. congruence.
      * split; [exact I1|]. intros NE H N. apply I2; [exact NE|exact H|]. intro X. apply N. apply has_path_cons. now right.
Qed.
Lemma unique_at pre a post r p : append_each (pre ++ a :: post) [] = Some r -> neat a -> has_path [a] p ->
  ~ has_path pre p -> ~ has_path post p -> member_at r p = member_at [a] p.
Proof.
  intros E N H NP NQ.
  assert (APP : forall l1 l2 cs, append_each (l1 ++ l2) cs = match append_each l1 cs with Some x => append_each l2 x | None => None end).
  { induction l1 as [|x l1 IH]; intros l2 cs; cbn [append_each app]; [reflexivity|]. fold append_each. destruct (append_child x cs); [apply IH|reflexivity]. }
  rewrite APP in E. destruct (append_each pre []) as [c1|] eqn:E1; [|discriminate]. cbn [append_each] in E. fold append_each in E.
  destruct (append_child a c1) as [c2|] eqn:E2; [|discriminate].
  assert (PA : forall l, Forall put_at l) by (intro l; apply Forall_forall; intros; apply put_at_all).
  destruct (put_each post (PA post) c2 r p E) as (Q1 & _). rewrite Q1 by assumption.
  destruct (put_at_all a c1 c2 p E2) as (_ & Q2). apply Q2; [assumption|assumption|].
  destruct (append_each_ok pre) with (cs := @nil member) (r := c1) as (_ & A2); [apply Forall_forall; intros; apply step_ok_all|exact E1|].
  rewrite A2. intros [X|X]; [inversion X; contradiction|tauto].
Qed.
