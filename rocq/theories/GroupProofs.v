(** Field names. *)
From Coq Require Import String ZArith List Bool Lia ZifyBool ZifyNat Sorting.Permutation Sorting.Sorted.
From Verif Require Import Base BaseProofs WireModel TypeModel TextModel TextSpec TextProofs ValueModel MarkModel CopyModel NtModel
  TypeSpec TypeNameProofs TypeDefProofs NtSpec GroupModel GroupSpec.
Import ListNotations.
Local Open Scope Z_scope.

(** ** getline *)
Lemma getlines_app c s t : ~ In c s -> getlines c (s ++ c :: t) = s :: getlines c t.
Proof.
  induction s as [|x s IH]; intro N; cbn [getlines app].
  - now rewrite Z.eqb_refl.
  - destruct (Z.eqb_spec x c) as [->|]; [destruct N; now left|].
    rewrite IH; [reflexivity|]. intro; apply N; now right.
Qed.
Lemma getlines_one c s : ~ In c s -> s <> [] -> getlines c s = [s].
Proof.
  induction s as [|x s IH]; intros N E; [congruence|]. cbn [getlines].
  destruct (Z.eqb_spec x c) as [->|]; [destruct N; now left|].
  destruct s as [|y s]; [reflexivity|]. rewrite IH; [reflexivity| |congruence].
  intro; apply N; now right.
Qed.
Lemma getlines_dotted l : Forall (fun s => s <> [] /\ ~ In 46 s) l -> getlines 46 (dotted l) = l.
Proof.
  induction 1 as [|s l (E & N) F IH]; [reflexivity|]. destruct l as [|s2 l].
  - cbn [dotted]. now apply getlines_one.
  - change (dotted (s :: s2 :: l)) with (s ++ 46 :: dotted (s2 :: l)). rewrite getlines_app by assumption. now rewrite IH.
Qed.
Lemma getlines_no c s : Forall (fun l => ~ In c l) (getlines c s).
Proof.
  induction s as [|x s IH]; cbn [getlines]; [constructor|]. destruct (Z.eqb_spec x c) as [->|NE].
  - constructor; auto.
  - destruct (getlines c s) as [|l ls]; [repeat constructor; intros [|[]]; congruence|].
    inversion IH; subst. constructor; auto. intros [|]; [congruence|tauto].
Qed.

Lemma getlines_nil c s : getlines c s = [] -> s = [].
Proof. destruct s as [|x s]; [auto|]. cbn [getlines]. destruct (x =? c); [discriminate|]. destruct (getlines c s); discriminate. Qed.
Lemma getlines_cut c a b : getlines c (a ++ c :: b) = getlines c (a ++ [c]) ++ getlines c b.
Proof.
  induction a as [|x a IH]; cbn [app getlines].
  - now rewrite Z.eqb_refl.
  - destruct (x =? c); [now rewrite IH|]. rewrite IH. destruct (getlines c (a ++ [c])) eqn:E; [|reflexivity].
    apply getlines_nil in E. now destruct a.
Qed.
Lemma getlines_first c s l ls : getlines c s = l :: ls ->
  (~ In c l /\ exists b, s = l ++ b /\ (b = [] /\ l <> [] \/ exists b', b = c :: b')) /\ (forall t, In t ls -> ~ In c t /\ exists a b, s = (a ++ [c]) ++ t ++ b /\ (b = [] /\ t <> [] \/ exists b', b = c :: b')).
Proof.
  revert l ls. induction s as [|x s IH]; intros l ls E; [discriminate|]. cbn [getlines] in E.
  destruct (Z.eqb_spec x c) as [->|NE].
  - inversion E; subst. split; [split; [auto|]; exists (c :: s); split; [reflexivity|right; eauto]|].
    intros t I. destruct (getlines c s) as [|l2 ls2]; [destruct I|]. destruct (IH _ _ eq_refl) as ((N1 & b & -> & B) & R).
    destruct I as [->|I].
    + split; [assumption|]. exists [], b. split; auto.
    + destruct (R t I) as (N & a & b2 & E2 & B2). split; [assumption|]. exists (c :: a), b2. rewrite E2. split; auto.
  - destruct (getlines c s) as [|l2 ls2] eqn:G.
    + apply getlines_nil in G. subst. inversion E; subst. split; [|intros t []]. split; [intros [|[]]; congruence|].
      exists []. split; [reflexivity|left; split; congruence].
    + inversion E; subst. destruct (IH _ _ eq_refl) as ((N1 & b & -> & B) & R). split.
      * split; [intros [|]; [congruence|tauto]|]. exists b. split; [reflexivity|]. destruct B as [(-> & _)|B]; [left; split; congruence|now right].
      * intros t I. destruct (R t I) as (N & a & b2 & E2 & B2). split; [assumption|]. exists (x :: a), b2. rewrite E2. split; auto.
Qed.
Lemma getlines_pieces c s t : In t (getlines c s) <-> piece c s t.
Proof.
  split.
  - destruct (getlines c s) as [|l ls] eqn:E; [intros []|]. destruct (getlines_first _ _ _ _ E) as ((N & b & S & B) & R).
    intros [<-|I].
    + split; [assumption|]. exists [], b. auto.
    + destruct (R t I) as (NT & a & b2 & S2 & B2). split; [assumption|]. exists (a ++ [c]), b2. eauto.
  - intros (N & a & b & -> & A & B).
    assert (I : In t (getlines c (t ++ b))).
    { destruct B as [(-> & NT)|(b' & ->)].
      - rewrite app_nil_r. rewrite getlines_one by assumption. now left.
      - rewrite getlines_app by assumption. now left. }
    destruct A as [->|(a' & ->)]; [exact I|]. rewrite <- app_assoc. cbn [app]. rewrite getlines_cut. apply in_app_iff. now right.
Qed.

(** ** Subscripts *)
Lemma cut_last_app c a b : ~ In c b -> cut_last c (a ++ c :: b) = Some (a, b).
Proof.
  intro N. assert (E : forall s, ~ In c s -> cut_last c s = None).
  { induction s as [|x s IH]; intro M; [reflexivity|]. cbn [cut_last]. rewrite IH by (intro; apply M; now right).
    destruct (Z.eqb_spec x c) as [->|]; [destruct M; now left|reflexivity]. }
  induction a as [|x a IH]; cbn [app cut_last].
  - now rewrite E, Z.eqb_refl.
  - now rewrite IH.
Qed.
Lemma cut_last_none c s : ~ In c s -> cut_last c s = None.
Proof.
  induction s as [|x s IH]; intro M; [reflexivity|]. cbn [cut_last]. rewrite IH by (intro; apply M; now right).
  destruct (Z.eqb_spec x c) as [->|]; [destruct M; now left|reflexivity].
Qed.
Lemma dec_digits_app acc a b : Forall (fun x => GroupModel.is_digit x = true) a ->
  dec_digits acc (a ++ b) = dec_digits (fst (dec_digits acc a)) b.
Proof.
  intro F. revert acc. induction F as [|x a D F IH]; intro acc; [reflexivity|].
  cbn [app dec_digits]. rewrite D. apply IH.
Qed.
Lemma numeral_digits s v : numeral 10 s v -> Forall (fun x => GroupModel.is_digit x = true) s /\ s <> [] /\ 0 <= v /\
  forall b, hd 0 b = 93 -> dec_digits 0 (s ++ b) = (v, b).
Proof.
  induction 1 as [c v D|s v c d N (F & E & P & IH) D].
  - destruct D as (D1 & D2).
    assert (DG : GroupModel.is_digit c = true) by (unfold GroupModel.is_digit; lia).
    split; [repeat constructor; exact DG|]. split; [discriminate|]. split; [lia|].
    intros b B. cbn [app dec_digits]. rewrite DG. destruct b as [|x b]; [discriminate|]. cbn [hd] in B. subst x.
    cbn [dec_digits]. change (GroupModel.is_digit 93) with false. cbv iota. f_equal. lia.
  - destruct D as (D1 & D2).
    assert (DG : GroupModel.is_digit c = true) by (unfold GroupModel.is_digit; lia).
    split; [apply Forall_app; split; [assumption|repeat constructor; exact DG]|].
    split; [destruct s; discriminate|]. split; [lia|].
    intros b B. rewrite <- app_assoc. rewrite dec_digits_app by assumption.
    assert (X : fst (dec_digits 0 s) = v).
    { specialize (IH [93] eq_refl). rewrite dec_digits_app in IH by assumption.
      cbn [dec_digits] in IH. change (GroupModel.is_digit 93) with false in IH. cbv iota in IH. congruence. }
    rewrite X. cbn [app dec_digits]. rewrite DG. destruct b as [|x b]; [discriminate|]. cbn [hd] in B. subst x.
    cbn [dec_digits]. change (GroupModel.is_digit 93) with false. cbv iota. f_equal. lia.
Qed.
Lemma skip_space_digit x s : GroupModel.is_digit x = true -> skip_space (x :: s) = x :: s.
Proof.
  intro D. unfold GroupModel.is_digit in D. cbn [skip_space].
  replace (is_space x) with false; [reflexivity|]. unfold is_space. lia.
Qed.
Lemma strtol_numeral d i b : numeral 10 d i -> i < no_index -> hd 0 b = 93 -> strtol10 (d ++ b) = (i, b).
Proof.
  intros N L B. destruct (numeral_digits _ _ N) as (F & E & P & D).
  destruct d as [|x d]; [congruence|]. inversion F; subst. unfold strtol10. cbn [app].
  rewrite skip_space_digit by assumption. 
  assert (X : (x =? 45) = false /\ (x =? 43) = false) by (unfold GroupModel.is_digit in *; lia). destruct X as [-> ->]. cbn [orb].
  rewrite H1. change (x :: d ++ b) with ((x :: d) ++ b). rewrite D by assumption.
  f_equal. unfold long_clamp, no_index in *. lia.
Qed.
Lemma last_snoc {A} (l : list A) x d : last (l ++ [x]) d = x.
Proof. apply last_last. Qed.
Lemma spells_part s c : spells s c -> parse_part s = Some c /\ s <> [] /\ ~ In 46 s.
Proof.
  intro H. destruct H as [n E N L|n d i N D L].
  - split; [|auto]. unfold parse_part. destruct n as [|x n]; [congruence|]. cbn [is_nil].
    rewrite (proj2 (Z.eqb_neq _ _) L). reflexivity.
  - destruct (numeral_digits _ _ D) as (F & E & P & _). split; [|split].
    + unfold parse_part. replace (is_nil (n ++ 91 :: d ++ [93])) with false by now destruct n.
      replace (last (n ++ 91 :: d ++ [93]) 0) with 93.
      2:{ change (91 :: d ++ [93]) with ((91 :: d) ++ [93]). rewrite app_assoc. now rewrite last_snoc. }
      rewrite Z.eqb_refl.
      assert (ND : ~ In 91 (d ++ [93])).
      { rewrite in_app_iff. intros [I|[I|[]]]; [|discriminate]. rewrite Forall_forall in F. specialize (F _ I).
        discriminate. }
      rewrite cut_last_app by assumption. rewrite (strtol_numeral _ i) by (auto; reflexivity).
      cbn [hd]. rewrite Z.eqb_refl. do 2 f_equal. unfold u_cast. change (2 ^ (8 * Z.of_nat 4)) with 4294967296.
      unfold no_index in *. rewrite Z.mod_small by lia. reflexivity.
    + destruct n; discriminate.
    + rewrite in_app_iff. intros [I|[I|I]]; [tauto|discriminate|]. apply in_app_iff in I as [I|[I|[]]]; [|discriminate].
      rewrite Forall_forall in F. specialize (F _ I). discriminate.
Qed.
Lemma spells_parts ts cs : Forall2 spells ts cs -> parse_parts ts = Some cs.
Proof.
  induction 1 as [|s c ts cs H F IH]; [reflexivity|]. cbn [parse_parts].
  destruct (spells_part _ _ H) as (-> & _). now rewrite IH.
Qed.
Lemma spells_name ts cs : Forall2 spells ts cs -> cs <> [] -> parse_name (dotted ts) = Some cs.
Proof.
  intros F N. unfold parse_name.
  assert (G : Forall (fun s => s <> [] /\ ~ In 46 s) ts).
  { clear N. induction F as [|s c ts cs H F IH]; constructor; auto. now destruct (spells_part _ _ H) as (_ & ?). }
  replace (is_nil (dotted ts)) with false.
  2:{ destruct F as [|s c [|s2 ts] cs]; [congruence| |]; inversion G; subst; destruct s; try reflexivity; tauto. }
  rewrite getlines_dotted by assumption. rewrite (spells_parts _ _ F). destruct cs; [congruence|reflexivity].
Qed.
Lemma print_spells c : plain_comp c -> spells (print_comp c) c.
Proof.
  intros (N & H). unfold print_comp, is_indexed. destruct c as [n i]. cbn [p_name p_index] in *.
  destruct (Z.eqb_spec i no_index) as [->|NE]; cbn [negb].
  - rewrite app_nil_r. destruct H as [(_ & E & L)|H]; [|lia]. now constructor.
  - destruct H as [(H & _)|H]; [congruence|]. constructor; auto; [|lia].
    pose proof (print_int_spec i) as [(-> & ->)|[(c & r & -> & _ & M & _)|(c & r & _ & _ & _ & X)]]; [|exact M|lia].
    constructor. unfold is_digit_of. lia.
Qed.
Lemma print_dotted l : print_comps l = dotted (map print_comp l).
Proof. induction l as [|c [|c2 l] IH]; [reflexivity|reflexivity|]. cbn [print_comps map dotted] in *. now rewrite IH. Qed.
Lemma print_parse l : Forall plain_comp l -> l <> [] -> parse_name (print_name l) = Some l.
Proof.
  intros F N. unfold print_name. destruct l as [|c l]; [congruence|]. cbn [is_nil]. rewrite print_dotted.
  apply spells_name; [|congruence]. clear N. revert F. generalize (c :: l). clear c l. intros l F.
  induction F; cbn [map]; constructor; auto. now apply print_spells.
Qed.
(** names which are refused *)
Lemma parts_none l p : In p l -> parse_part p = None -> parse_parts l = None.
Proof.
  induction l as [|x l IH]; intros I E; [destruct I|]. cbn [parse_parts]. destruct I as [->|I].
  - now rewrite E.
  - rewrite (IH I E). now destruct (parse_part x).
Qed.
Lemma name_refused s p : s <> [] -> piece 46 s p -> parse_part p = None -> parse_name s = None.
Proof.
  intros N P E. unfold parse_name. destruct s as [|x s]; [congruence|]. cbn [is_nil].
  apply getlines_pieces in P. now rewrite (parts_none _ _ P E).
Qed.
Lemma part_unmatched p : last p 0 = 93 -> ~ In 91 p -> parse_part p = None.
Proof.
  intros L N. unfold parse_part. destruct p; [reflexivity|]. cbn [is_nil]. rewrite L, Z.eqb_refl. now rewrite cut_last_none.
Qed.
(** a subscript which does not start as a number does *)
Lemma part_bad n x r : ~ In 91 (x :: r) -> is_space x = false -> GroupModel.is_digit x = false -> x <> 43 -> x <> 45 -> x <> 93 ->
  last (x :: r) 0 = 93 -> parse_part (n ++ 91 :: x :: r) = None.
Proof.
  intros N SP D P M B L. unfold parse_part. replace (is_nil _) with false by now destruct n.
  replace (last (n ++ 91 :: x :: r) 0) with 93.
  2:{ rewrite <- L. symmetry. change (91 :: x :: r) with ([91] ++ x :: r). rewrite app_assoc. generalize (n ++ [91]).
      intro l. induction l as [|y l IH]; [reflexivity|]. cbn [app]. rewrite <- IH at 1. destruct (l ++ x :: r) eqn:E; [destruct l; discriminate|reflexivity]. }
  rewrite Z.eqb_refl, cut_last_app by assumption. unfold strtol10. cbn [skip_space]. rewrite SP.
  rewrite (proj2 (Z.eqb_neq x 45)), (proj2 (Z.eqb_neq x 43)) by assumption. cbn [orb]. rewrite D. cbn [hd].
  now rewrite (proj2 (Z.eqb_neq x 93)).
Qed.
