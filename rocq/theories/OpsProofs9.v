(** MONITOR of a group: the first update. *)
From Coq Require Import String ZArith List Bool Lia Arith.
From Verif Require Import Base BaseProofs WireModel TypeModel TextModel ValueModel MarkModel CopyModel NtModel GroupModel OpsModel OpsSpec
  OpsProofs OpsProofs2 OpsProofs3 OpsProofs4 OpsProofs5 OpsProofs6 OpsProofs7 OpsProofs8.
Import ListNotations.
Local Open Scope Z_scope.

Lemma set_nth_nil i : set_nth i [] = [].
Proof. unfold set_nth. rewrite firstn_nil, skipn_nil. reflexivity. Qed.
Lemma set_nth_0 b l : set_nth 0 (b :: l) = true :: l.
Proof. reflexivity. Qed.
Lemma set_nth_S i b l : set_nth (S i) (b :: l) = b :: set_nth i l.
Proof. reflexivity. Qed.
Lemma set_nth_length l : forall i, length (set_nth i l) = length l.
Proof.
  induction l as [|b l IH]; intros i; [rewrite set_nth_nil; reflexivity|]. destruct i; [reflexivity|].
  rewrite set_nth_S. cbn [length]. rewrite IH. reflexivity.
Qed.
Lemma set_nth_false l : forall i k, nth_error l i = Some false -> nth_error (set_nth k l) i = Some false \/ k = i.
Proof.
  induction l as [|b l IH]; intros i k E; [destruct i; discriminate|]. destruct k.
  - destruct i; [right; reflexivity|]. left. exact E.
  - rewrite set_nth_S. destruct i; [left; exact E|]. cbn [nth_error] in *. destruct (IH i k E) as [H | ->]; auto.
Qed.
Lemma set_nth_true l : forall i k, nth_error l i = Some true -> nth_error (set_nth k l) i = Some true.
Proof.
  induction l as [|b l IH]; intros i k E; [destruct i; discriminate|]. destruct k.
  - destruct i; [reflexivity|exact E].
  - rewrite set_nth_S. destruct i; [exact E|]. cbn [nth_error] in *. apply IH, E.
Qed.
Lemma set_nth_at l : forall i, (i < length l)%nat -> nth_error (set_nth i l) i = Some true.
Proof.
  induction l as [|b l IH]; intros i L; cbn [length] in L; [lia|]. destruct i; [reflexivity|]. rewrite set_nth_S. cbn [nth_error]. apply IH. lia.
Qed.
Lemma all_true l : forallb (fun b => b) l = true <-> forall i b, nth_error l i = Some b -> b = true.
Proof.
  rewrite forallb_forall. split.
  - intros H i b E. apply (H b). eapply nth_error_In, E.
  - intros H b I. apply In_nth_error in I. destruct I as (i & E). exact (H i b E).
Qed.
Definition ready (s : gsub) : bool := forallb (fun b => b) (gs_value s) && forallb (fun b => b) (gs_prop s).
Lemma sub_post_first s : gs_primed s = false ->
  (ready s = true -> exists u, sub_post s = ({| gs_primed := true; gs_value := gs_value s; gs_prop := gs_prop s; gs_cur := [] |}, Some u)) /\
  (ready s = false -> sub_post s = (s, None)).
Proof.
  intros E. unfold sub_post, ready. rewrite E. destruct (_ && _); split; intros H; try discriminate; [eexists; reflexivity|reflexivity].
Qed.
(** any step: the flags, and what is posted first *)
Lemma step_flags fp w g e h s h1 s1 o :
  has_event g e -> sub_step fp w g e h s = (h1, EOk (s1, o)) ->
  gs_value s1 = fst (event_flags g e s) /\ gs_prop s1 = snd (event_flags g e s) /\
  (gs_primed s = false -> (o <> None -> ready s1 = true) /\ (o = None -> gs_primed s1 = false)) /\
  (gs_primed s = true -> gs_primed s1 = true).
Proof.
  intros He E. rewrite (sub_step_eq fp w g e h s He) in E.
  destruct (event_op fp w g e _) as (s0 & r). cbv zeta in E.
  set (s2 := {| gs_primed := gs_primed s; gs_value := fst (event_flags g e s); gs_prop := snd (event_flags g e s); gs_cur := s_val s0 |}) in *.
  destruct r as [u | f |]; [|inversion E; subst; unfold s2; cbn; split; [reflexivity|split; [reflexivity|split; [|auto]]]; intros Hp; split; [congruence|auto]|discriminate].
  inversion E as [[E1 E2]]. destruct (gs_primed s) eqn:Ep.
  - unfold sub_post in E2. change (gs_primed s2) with true in E2. cbv iota in E2.
    destruct (is_nil (gs_cur s2)); inversion E2; subst; (split; [reflexivity|split; [reflexivity|split; [discriminate|reflexivity]]]).
  - destruct (sub_post_first s2 eq_refl) as (H1 & H2). destruct (ready s2) eqn:Er.
    + destruct (H1 eq_refl) as (u' & H). rewrite H in E2. inversion E2; subst. cbn [gs_value gs_prop gs_primed].
      split; [reflexivity|split; [reflexivity|split; [|discriminate]]]. intros _. split; [intros _; exact Er|discriminate].
    + rewrite (H2 eq_refl) in E2. inversion E2; subst.
      split; [reflexivity|split; [reflexivity|split; [|discriminate]]]. intros _. split; [congruence|reflexivity].
Qed.
Lemma run_inv fp w g e l h s h' s' us :
  sub_run fp w g (e :: l) h s = (h', EOk (s', us)) ->
  exists h1 s1 o us', sub_step fp w g e h s = (h1, EOk (s1, o)) /\ sub_run fp w g l h1 s1 = (h', EOk (s', us')) /\ us = cons_posted o us'.
Proof.
  intros E. cbn [sub_run] in E. destruct (sub_step fp w g e h s) as (h1 & [(s1 & o) | f |]) eqn:Es; try discriminate.
  destruct (sub_run fp w g l h1 s1) as (h2 & [(s2 & us') | f |]) eqn:Er; try discriminate. inversion E; subst.
  exists h1, s1, o, us'. split; [reflexivity|split; [exact Er|reflexivity]].
Qed.
Lemma run_first fp w g l : Forall (has_event g) l -> forall h s h' s' us,
  sub_run fp w g l h s = (h', EOk (s', us)) -> gs_primed s = false -> us <> [] ->
  (forall i, nth_error (gs_value s) i = Some false -> exists x, In (SValue i x) l) /\
  (forall i, nth_error (gs_prop s) i = Some false -> In (SProps i) l).
Proof.
  intros F. induction F as [|e l He F IH]; intros h s h' s' us E Hp Hu.
  - cbn in E. inversion E; subst. contradiction.
  - destruct (run_inv _ _ _ _ _ _ _ _ _ _ E) as (h1 & s1 & o & us' & Es & Er & ->).
    destruct (step_flags _ _ _ _ _ _ _ _ _ He Es) as (Fv & Fp & Ho & _). destruct (Ho Hp) as (Hsome & Hnone).
    assert (V : forall i, nth_error (gs_value s) i = Some false -> nth_error (gs_value s1) i = Some false \/ exists x, e = SValue i x).
    { intros i Ei. rewrite Fv. destruct e as [k x|k|]; cbn [event_flags fst]; auto.
      destruct (set_nth_false _ i k Ei) as [H | ->]; [left; exact H|right; exists x; reflexivity]. }
    assert (P : forall i, nth_error (gs_prop s) i = Some false -> nth_error (gs_prop s1) i = Some false \/ e = SProps i).
    { intros i Ei. rewrite Fp. destruct e as [k x|k|]; cbn [event_flags snd]; auto.
      destruct (set_nth_false _ i k Ei) as [H | ->]; [left; exact H|right; reflexivity]. }
    destruct o as [u|].
    + specialize (Hsome ltac:(discriminate)). unfold ready in Hsome. apply andb_prop in Hsome. destruct Hsome as (Av & Ap).
      rewrite all_true in Av, Ap. split; intros i Ei.
      * destruct (V i Ei) as [H | (x & ->)]; [specialize (Av _ _ H); discriminate|exists x; left; reflexivity].
      * destruct (P i Ei) as [H | ->]; [specialize (Ap _ _ H); discriminate|left; reflexivity].
    + cbn [cons_posted] in Hu. destruct (IH h1 s1 h' s' us' Er (Hnone eq_refl) Hu) as (IV & IP). split; intros i Ei.
      * destruct (V i Ei) as [H | (x & ->)]; [|exists x; left; reflexivity]. destruct (IV i H) as (x & I). exists x. right. exact I.
      * destruct (P i Ei) as [H | ->]; [|left; reflexivity]. right. apply IP, H.
Qed.
Lemma subscribe_flags w g q s : subscribe w g q = EOk s ->
  gs_primed s = false /\ gs_value s = map no_chan (g_fields g) /\
  gs_prop s = map (fun f => no_chan f || negb (match ftype f with MConst => true | _ => has_props f end)) (g_fields g).
Proof.
  intros E. unfold subscribe in E. destruct (seq _ _ _) as (s0 & [u | e |]); try discriminate. inversion E; subst. auto.
Qed.

(** ** The first update comes *)
Definition settled (s : gsub) : Prop := gs_primed s = true /\ gs_cur s = [] \/ gs_primed s = false /\ ready s = false.
Lemma step_settled fp w g e h s h1 s1 o :
  answers w -> wired (g_fields g) -> triggers_exist g -> has_event g e -> sub_step fp w g e h s = (h1, EOk (s1, o)) -> settled s1.
Proof.
  intros Ha Hw Ht He E. rewrite (sub_step_eq fp w g e h s He) in E.
  destruct (event_op fp w g e {| s_acts := h; s_val := gs_cur s |}) as (s0 & r) eqn:Eo.
  destruct (event_ok fp w g e Ha Hw Ht He _ _ _ Eo) as (_ & _ & _ & _ & Er). subst r. cbv zeta in E.
  set (s2 := {| gs_primed := gs_primed s; gs_value := fst (event_flags g e s); gs_prop := snd (event_flags g e s); gs_cur := s_val s0 |}) in *.
  inversion E as [[E1 E2]]. destruct (gs_primed s) eqn:Ep.
  - left. unfold sub_post in E2. change (gs_primed s2) with true in E2. cbv iota in E2.
    destruct (gs_cur s2) eqn:Ec; cbn [is_nil] in E2; inversion E2; subst; (split; [reflexivity|]); [exact Ec|reflexivity].
  - destruct (sub_post_first s2 eq_refl) as (H1 & H2). destruct (ready s2) eqn:Er.
    + destruct (H1 eq_refl) as (u' & H). rewrite H in E2. inversion E2; subst. left. split; reflexivity.
    + rewrite (H2 eq_refl) in E2. inversion E2; subst. right. split; [reflexivity|exact Er].
Qed.
Lemma run_settled fp w g l : answers w -> wired (g_fields g) -> triggers_exist g -> Forall (has_event g) l -> forall h s h' s' us,
  sub_run fp w g l h s = (h', EOk (s', us)) -> (l <> [] \/ settled s) -> settled s'.
Proof.
  intros Ha Hw Ht F. induction F as [|e l He F IH]; intros h s h' s' us E H.
  - cbn in E. inversion E; subst. destruct H as [H | H]; [contradiction|exact H].
  - destruct (run_inv _ _ _ _ _ _ _ _ _ _ E) as (h1 & s1 & o & us' & Es & Er & ->).
    eapply IH; [exact Er|]. right. eapply step_settled; eassumption.
Qed.
Lemma run_flags fp w g l : Forall (has_event g) l -> forall h s h' s' us,
  sub_run fp w g l h s = (h', EOk (s', us)) ->
  length (gs_value s') = length (gs_value s) /\ length (gs_prop s') = length (gs_prop s) /\
  (forall i, nth_error (gs_value s) i = Some true \/ (i < length (gs_value s))%nat /\ (exists x, In (SValue i x) l) -> nth_error (gs_value s') i = Some true) /\
  (forall i, nth_error (gs_prop s) i = Some true \/ (i < length (gs_prop s))%nat /\ In (SProps i) l -> nth_error (gs_prop s') i = Some true) /\
  (gs_primed s = false -> us = [] -> gs_primed s' = false).
Proof.
  intros F. induction F as [|e l He F IH]; intros h s h' s' us E.
  - cbn in E. inversion E; subst. split; [reflexivity|split; [reflexivity|split; [|split; [|auto]]]].
    + intros i [H | (_ & x & [])]. exact H.
    + intros i [H | (_ & [])]. exact H.
  - destruct (run_inv _ _ _ _ _ _ _ _ _ _ E) as (h1 & s1 & o & us' & Es & Er & ->).
    destruct (step_flags _ _ _ _ _ _ _ _ _ He Es) as (Fv & Fp & Ho & _).
    destruct (IH _ _ _ _ _ Er) as (Lv & Lp & IV & IP & IU).
    assert (L1 : length (gs_value s1) = length (gs_value s)) by (rewrite Fv; destruct e; cbn [event_flags fst]; rewrite ?set_nth_length; reflexivity).
    assert (L2 : length (gs_prop s1) = length (gs_prop s)) by (rewrite Fp; destruct e; cbn [event_flags snd]; rewrite ?set_nth_length; reflexivity).
    split; [congruence|split; [congruence|split; [|split]]].
    + intros i [H | (L & x & [-> | I])].
      * apply IV. left. rewrite Fv. destruct e; cbn [event_flags fst]; auto. apply set_nth_true, H.
      * apply IV. left. rewrite Fv. cbn [event_flags fst]. apply set_nth_at, L.
      * apply IV. right. rewrite L1. split; [exact L|exists x; exact I].
    + intros i [H | (L & [-> | I])].
      * apply IP. left. rewrite Fp. destruct e; cbn [event_flags snd]; auto. apply set_nth_true, H.
      * apply IP. left. rewrite Fp. cbn [event_flags snd]. apply set_nth_at, L.
      * apply IP. right. rewrite L2. split; [exact L|exact I].
    + intros Hp Hu. destruct o as [u|]; cbn [cons_posted] in Hu; [discriminate|]. apply IU; [|exact Hu]. apply (Ho Hp). reflexivity.
Qed.
Lemma run_ready fp w g q l h s h' s' us :
  answers w -> wired (g_fields g) -> triggers_exist g -> Forall (has_event g) l -> l <> [] -> all_first g l ->
  (forall f, In f (g_fields g) -> ftype f = MConst -> cf_chan f = None) ->
  subscribe w g q = EOk s -> sub_run fp w g l h s = (h', EOk (s', us)) ->
  us <> [] /\ gs_cur s' = [].
Proof.
  intros Ha Hw Ht F Nl Hall Hconst Es E. destruct (subscribe_flags _ _ _ _ Es) as (Pr & Ev & Ep).
  destruct (run_flags _ _ _ _ F _ _ _ _ _ E) as (Lv & Lp & IV & IP & IU).
  assert (R : ready s' = true).
  { unfold ready. apply andb_true_intro. split; apply all_true; intros i b Hb.
    - assert (L : (i < length (gs_value s'))%nat) by (apply nth_error_Some; congruence).
      rewrite Lv, Ev, map_length in L. destruct (nth_error (g_fields g) i) as [f|] eqn:Ef; [|apply nth_error_None in Ef; lia].
      assert (T : nth_error (gs_value s') i = Some true).
      { apply IV. destruct (cf_chan f) as [c|] eqn:Ec.
        - right. rewrite Ev, map_length. split; [exact L|]. apply (Hall i f Ef). congruence.
        - left. rewrite Ev. rewrite (map_nth_error _ _ _ Ef). unfold no_chan. rewrite Ec. reflexivity. }
      congruence.
    - assert (L : (i < length (gs_prop s'))%nat) by (apply nth_error_Some; congruence).
      rewrite Lp, Ep, map_length in L. destruct (nth_error (g_fields g) i) as [f|] eqn:Ef; [|apply nth_error_None in Ef; lia].
      assert (T : nth_error (gs_prop s') i = Some true).
      { apply IP. rewrite Ep, map_length, (map_nth_error _ _ _ Ef). unfold no_chan. destruct (cf_chan f) as [c|] eqn:Ec; [|left; reflexivity].
        destruct (has_props f) eqn:Eh.
        - right. split; [exact L|]. apply (Hall i f Ef); [congruence|]. apply has_props_iff, Eh.
        - left. destruct (ftype f) eqn:Et; cbn; try (rewrite ?Eh; reflexivity).
          exfalso. rewrite (Hconst f (nth_error_In _ _ Ef) Et) in Ec. discriminate. }
      congruence. }
  destruct (run_settled _ _ _ _ Ha Hw Ht F _ _ _ _ _ E (or_introl Nl)) as [(A & B) | (A & B)]; [|congruence].
  split; [|exact B]. intros ->. specialize (IU Pr eq_refl). congruence.
Qed.
