(** copy_tree, _append and equalType. *)
From Coq Require Import ZArith List Bool Lia ZifyBool ZifyNat.
From Verif Require Import Base BaseProofs WireModel WireSpec TypeModel TypeSpec TypeProofs TypeNameProofs.
Import ListNotations.
Local Open Scope Z_scope.

(** ** copy_tree *)
Definition copy_loop (rec : str -> list fdesc -> option member) (base : list fdesc) :=
  fix go (l : list (str * nat)) : option (list member) :=
    match l with
    | [] => Some []
    | (n, i) :: l' =>
        match rec n (skipn i base), go l' with
        | Some c, Some cs => Some (c :: cs)
        | _, _ => None
        end
    end.
Lemma copy_tree_S fuel name d l :
  copy_tree (S fuel) name (d :: l) =
  if (f_code d =? tc_Struct) || (f_code d =? tc_Union) then
    match copy_loop (copy_tree fuel) (if f_code d =? tc_Struct then d :: l else f_members d) (f_iter d) with
    | Some cs => Some (Mem (f_code d) name (f_id d) cs) | None => None end
  else if is_array_of_compound (f_code d) then
    match copy_tree fuel name (f_members d) with
    | Some (Mem c n i cs) => Some (Mem (tc_arrayOf c) n i cs)
    | None => None
    end
  else Some (Mem (f_code d) name (f_id d) []).
Proof. reflexivity. Qed.

Definition copies (m : member) : Prop := forall fuel name p rest, (levels m <= fuel)%nat ->
  copy_tree fuel name (set_parent p (flatten m) ++ rest) = Some (rename name m).

Lemma copy_loop_ok fuel cs : Forall (fun c => copies c /\ (levels c <= fuel)%nat) cs ->
  forall st off base tail, skipn off base = kids_from st off cs ++ tail ->
  copy_loop (copy_tree fuel) base (iter_from off cs) = Some cs.
Proof.
  induction 1 as [|c cs (E & L) _ IH]; intros st off base tail K; [reflexivity|].
  cbn [iter_from copy_loop]. cbn [kids_from] in K.
  assert (K1 : exists p, skipn off base = set_parent p (flatten c) ++ kids_from st (off + length (flatten c)) cs ++ tail).
  { rewrite K, <- app_assoc. destruct st; [eauto|]. exists 0%nat. now rewrite set_parent_flatten. }
  destruct K1 as [p K1]. rewrite K1, E by assumption. fold (copy_loop (copy_tree fuel) base).
  rewrite (IH st (off + length (flatten c))%nat base tail).
  - f_equal. f_equal. now destruct c.
  - rewrite <- skipn_skipn_add, K1. rewrite <- (set_parent_length p). apply skipn_len_app.
Qed.
Lemma copy_plain fuel name code id cs p rest :
  (code = tc_Struct \/ code = tc_Union) -> Forall (fun c => copies c /\ (levels c <= fuel)%nat) cs ->
  copy_tree (S fuel) name (set_parent p (flatten_plain code id cs) ++ rest) = Some (Mem code name id cs).
Proof.
  intros C F. rewrite flatten_plain_eq. cbv zeta. destruct C as [-> | ->].
  - change (tc_Struct =? tc_Struct) with true. cbv iota. cbn [set_parent app]. rewrite copy_tree_S.
    cbn [f_code f_iter f_id]. change (tc_Struct =? tc_Struct) with true. cbn [orb]. cbv iota.
    change (base_of tc_Struct) with 1%nat.
    now rewrite (copy_loop_ok fuel cs F true 1%nat _ rest) by reflexivity.
  - change (tc_Union =? tc_Struct) with false. cbv iota. cbn [set_parent app]. rewrite copy_tree_S.
    cbn [f_code f_iter f_id f_members]. change (tc_Union =? tc_Struct) with false. cbn [orb]. cbv iota.
    change (tc_Union =? tc_Union) with true. cbv iota. change (base_of tc_Union) with 0%nat.
    now rewrite (copy_loop_ok fuel cs F false 0%nat _ []) by (now rewrite app_nil_r).
Qed.
Lemma copies_all m : describable m = true -> copies m.
Proof.
  induction m as [code name0 id cs IH] using member_ind'. intro D.
  intros fuel name p rest L. destruct (levels_ge _ _ _ _ _ L) as (n & -> & LA).
  pose proof (levels_children _ _ _ _ _ L) as LC. cbn [rename m_code m_id m_children].
  destruct (describable_inv _ _ _ _ D) as [(M & W & N & F)|(M & LF & -> & ->)].
  - assert (F' : forall k, (k = S n - (if is_array_of_compound code then 2 else 1))%nat ->
      Forall (fun c => copies c /\ (levels c <= k)%nat) cs).
    { intros k ->. rewrite Forall_forall in *. intros c I. destruct (F c I).
      split; [apply IH; assumption|]. apply LC; assumption. }
    rewrite flatten_eq.
    destruct (has_members_cases _ M) as [A|[A C]]; rewrite A in *.
    + destruct (LA eq_refl) as (n2 & ->). cbn [set_parent app]. rewrite copy_tree_S. cbn [f_code f_members].
      rewrite A. destruct (array_scalar _ A) as [B SC].
      replace ((code =? tc_Struct) || (code =? tc_Union)) with false.
      2:{ unfold is_array_of_compound in A. apply orb_true_iff in A as [A|A]; apply Z.eqb_eq in A; subst; reflexivity. }
      pose proof (copy_plain n2 name (tc_scalarOf code) id cs 0 [] SC (F' n2 ltac:(lia))) as E.
      rewrite app_nil_r in E.
      assert (SP : set_parent 0 (flatten_plain (tc_scalarOf code) id cs) = flatten_plain (tc_scalarOf code) id cs).
      { rewrite flatten_plain_eq. cbv zeta. destruct (_ =? _); reflexivity. }
      rewrite SP in E. rewrite E.
      replace (tc_arrayOf (tc_scalarOf code)) with code; [reflexivity|].
      unfold is_array_of_compound in A. apply orb_true_iff in A as [A|A]; apply Z.eqb_eq in A; subst; reflexivity.
    + apply copy_plain; auto. apply F'. lia.
  - rewrite flatten_eq. unfold has_members in M. apply orb_false_iff in M as [M1 M2]. rewrite M2.
    rewrite flatten_plain_eq. cbv zeta. pose proof M1 as M0. apply orb_false_iff in M1 as [M3 M4]. rewrite M3.
    cbn [set_parent app kids_from iter_from look_from]. rewrite copy_tree_S. cbn [f_code f_id].
    now rewrite M0, M2.
Qed.

(** ** _append *)
Definition append_each :=
  fix each (gs : list member) (acc : list member) : option (list member) :=
    match gs with
    | [] => Some acc
    | g :: gs' => match append_child g acc with Some acc' => each gs' acc' | None => None end
    end.
Definition merge_into (adopt child : member) : option member :=
  if negb (Bool.eqb (tc_compound (m_code child)) (tc_compound (m_code adopt))) then None
  else match append_each (m_children adopt) (m_children child) with
       | Some cs2 => Some (Mem (m_code adopt) (m_name child) (if is_nil (m_id adopt) then m_id child else m_id adopt) cs2)
       | None => None
       end.
Lemma append_child_nil adopt : append_child adopt [] = Some [adopt].
Proof. now destruct adopt. Qed.
Lemma append_child_cons adopt c cs : append_child adopt (c :: cs) =
  if str_eqb (m_name c) (m_name adopt)
  then match merge_into adopt c with Some c' => Some (c' :: cs) | None => None end
  else match append_child adopt cs with Some r => Some (c :: r) | None => None end.
Proof.
  destruct adopt as [code name id gs]. unfold merge_into. cbn [append_child m_name m_code m_id m_children].
  destruct (str_eqb (m_name c) name); [|reflexivity].
  destruct (negb _); [reflexivity|]. fold append_each.
  change ((fix each (gs0 acc : list member) {struct gs0} : option (list member) :=
      match gs0 with
      | [] => Some acc
      | g :: gs' => match append_child g acc with
                    | Some acc' => each gs' acc'
                    | None => None
                    end
      end) gs (m_children c)) with (append_each gs (m_children c)).
  destruct (append_each gs (m_children c)); reflexivity.
Qed.

(** the three facts about one step *)
Definition step_ok (adopt : member) : Prop := forall cs r, append_child adopt cs = Some r ->
  extends cs r /\ (forall path, has_path r path <-> has_path cs path \/ has_path [adopt] path).

Lemma extends_refl cs : extends cs cs.
Proof.
  assert (forall m, extends (m_children m) (m_children m)) as G.
  { induction m as [code name id l IH] using member_ind'. cbn [m_children].
    rewrite <- (app_nil_r l) at 2. apply extends_intro. induction IH; constructor; auto. }
  apply (G (Mem 0 [] [] cs)).
Qed.
Lemma extends_Forall2 cs : Forall2 (fun o k => m_name o = m_name k /\ extends (m_children o) (m_children k)) cs cs.
Proof. induction cs; constructor; auto. split; [reflexivity|apply extends_refl]. Qed.
Lemma extends_same old new :
  Forall2 (fun o k => m_name o = m_name k /\ extends (m_children o) (m_children k)) old new -> extends old new.
Proof. intro F. rewrite <- (app_nil_r new). now apply extends_intro. Qed.
Lemma extends_trans : forall a b c, extends a b -> extends b c -> extends a c.
Proof.
  assert (G : forall m b c, extends (m_children m) b -> extends b c -> extends (m_children m) c).
  { induction m as [code name id l IH] using member_ind'. cbn [m_children]. intros b c H1 H2.
    inversion H1 as [old kept added F E1 E2]. subst. inversion H2 as [old2 kept2 added2 F2 E3 E4]. subst.
    apply Forall2_app_inv_l in F2. destruct F2 as (k1 & k2 & F3 & F4 & ->). rewrite <- app_assoc.
    apply extends_intro. clear -IH F F3. revert kept k1 F F3.
    induction IH as [|x l Hx _ IHl]; intros kept k1 F F3; inversion F as [|? y ? ly [N1 X1] T1]; subst; inversion F3 as [|? z ? lz [N2 X2] T2]; subst; constructor.
    - split; [congruence|]. eapply Hx; eassumption.
    - eapply IHl; eassumption. }
  intros a b c. apply (G (Mem 0 [] [] a)).
Qed.

Lemma has_path_cons c cs path : has_path (c :: cs) path <-> has_path [c] path \/ has_path cs path.
Proof.
  split.
  - inversion 1; subst.
    + destruct H0 as [->|I]; [left; apply hp_here; now left|right; now apply hp_here].
    + destruct H0 as [->|I]; [left; apply hp_below; [now left|assumption]|right; now apply hp_below].
  - intros [H|H]; inversion H; subst.
    + destruct H0 as [->|[]]. apply hp_here. now left.
    + destruct H0 as [->|[]]. apply hp_below; [now left|assumption].
    + apply hp_here. now right.
    + apply hp_below; [now right|assumption].
Qed.
Lemma has_path_single c path : has_path [c] path <->
  exists p, path = m_name c :: p /\ (p = [] \/ has_path (m_children c) p).
Proof.
  split.
  - inversion 1; subst; destruct H0 as [->|[]]; eauto.
  - intros (p & -> & [->|H]); [apply hp_here; now left|apply hp_below; [now left|assumption]].
Qed.

Lemma append_each_ok gs : Forall step_ok gs -> forall cs r, append_each gs cs = Some r ->
  extends cs r /\ (forall path, has_path r path <-> has_path cs path \/ has_path gs path).
Proof.
  induction 1 as [|g gs S _ IH]; intros cs r H; cbn [append_each] in H.
  - inversion H; subst. split; [apply extends_refl|]. intro path. split; [auto|]. intros [?|X]; [auto|].
    inversion X; subst; easy.
  - destruct (append_child g cs) as [acc|] eqn:E; [|discriminate]. destruct (S _ _ E) as [S1 S2].
    fold append_each in H. destruct (IH _ _ H) as [I1 I2]. split; [eapply extends_trans; eassumption|].
    intro path. rewrite I2, S2, (has_path_cons g gs). tauto.
Qed.
Lemma step_ok_all adopt : step_ok adopt.
Proof.
  induction adopt as [code name id gs IH] using member_ind'. set (adopt := Mem code name id gs) in *.
  intro cs. induction cs as [|c cs IHc]; intros r H.
  - rewrite append_child_nil in H. inversion H; subst. split.
    + apply (extends_intro [] []). constructor.
    + intro path. split; [auto|]. intros [X|X]; [inversion X; subst; easy|exact X].
  - rewrite append_child_cons in H. destruct (str_eqb (m_name c) (m_name adopt)) eqn:E.
    + destruct (merge_into adopt c) as [c'|] eqn:M; [|discriminate]. inversion H; subst r. clear H.
      unfold merge_into in M. destruct (negb _); [discriminate|].
      destruct (append_each (m_children adopt) (m_children c)) as [cs2|] eqn:A; [|discriminate].
      inversion M; subst c'. clear M. destruct (append_each_ok gs IH _ _ A) as [A1 A2].
      apply str_eqb_eq in E. split.
      * apply extends_same. constructor; [split; [reflexivity|exact A1]|apply extends_Forall2].
      * intro path. rewrite has_path_cons, (has_path_cons c cs), !has_path_single. cbn [m_name m_children].
        split.
        -- intros [(p & -> & [->|X])|X]; [left; left; eauto| |tauto].
           apply A2 in X. destruct X as [X|X]; [left; left; eauto|]. right. exists p. rewrite E. eauto.
        -- intros [[(p & -> & [->|X])|X]|(p & -> & [->|X])]; [left; eauto| |tauto| |].
           ++ left. exists p. split; [reflexivity|]. right. apply A2. auto.
           ++ left. exists []. rewrite E. auto.
           ++ left. exists p. rewrite E. split; [reflexivity|]. right. apply A2. auto.
    + destruct (append_child adopt cs) as [r'|] eqn:A; [|discriminate]. inversion H; subst r.
      destruct (IHc _ eq_refl) as [I1 I2]. split.
      * inversion I1 as [o k ad F]; subst. apply (extends_intro (c :: cs) (c :: k)).
        constructor; [split; [reflexivity|apply extends_refl]|exact F].
      * intro path. rewrite has_path_cons, I2, (has_path_cons c cs). tauto.
Qed.

(** members not named are untouched, a named one takes code and id *)
Lemma append_child_member adopt cs r : append_child adopt cs = Some r ->
  (~ In (m_name adopt) (map m_name cs) /\ r = cs ++ [adopt]) \/
  (exists before c c' after, cs = before ++ c :: after /\ ~ In (m_name adopt) (map m_name before) /\
     m_name c = m_name adopt /\ r = before ++ c' :: after /\ m_name c' = m_name c /\ m_code c' = m_code adopt /\
     m_id c' = (if is_nil (m_id adopt) then m_id c else m_id adopt) /\
     tc_compound (m_code c) = tc_compound (m_code adopt)).
Proof.
  revert r. induction cs as [|c cs IH]; intros r H.
  - rewrite append_child_nil in H. inversion H; subst. left. auto.
  - rewrite append_child_cons in H. destruct (str_eqb (m_name c) (m_name adopt)) eqn:E.
    + apply str_eqb_eq in E. right.
      destruct (merge_into adopt c) as [c'|] eqn:M; [|discriminate]. inversion H; subst r. clear H.
      unfold merge_into in M. destruct (Bool.eqb _ _) eqn:EB; cbn [negb] in M; [|discriminate].
      destruct (append_each _ _) as [cs2|]; [|discriminate]. inversion M; subst c'.
      exists [], c. eexists. exists cs. repeat split; auto. now apply eqb_prop.
    + apply str_eqb_neq in E. destruct (append_child adopt cs) as [r'|]; [|discriminate]. inversion H; subst r.
      destruct (IH _ eq_refl) as [[N ->]|(b & x & x' & a & E1 & N & E2 & E3 & R)].
      * left. split; [|reflexivity]. cbn [map In]. tauto.
      * right. exists (c :: b), x, x', a. subst. cbn [map In app]. repeat split; try tauto.
Qed.
