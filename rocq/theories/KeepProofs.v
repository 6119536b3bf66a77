(** Proofs on keep-alive. *)
From Coq Require Import ZArith List Bool Lia Sorted.
From Verif Require Import KeepModel KeepSpec.
Import ListNotations.
Local Open Scope Z_scope.

Lemma enforce_low t : 2 * sec <= enforce t.
Proof. unfold enforce, sec. destruct t as [t|]; [|lia]. destruct (t <=? 0); [lia|]. destruct (t <? 2 * 1000000) eqn:E; [lia|]. apply Z.ltb_ge in E. lia. Qed.
Lemma period_pos t : sec <= echo_period t.
Proof. unfold echo_period. lia. Qed.
Lemma period_half t : 2 * sec <= t -> 2 * echo_period t <= t.
Proof. unfold echo_period, sec. intro H. pose proof (Z.mul_div_le (t * 3) 8 ltac:(lia)). lia. Qed.

Section Keep.
  Variables tc ts : Z.
  Variable d : Z.
  Notation P := (echo_period tc).
  Hypothesis D0 : 0 <= d.
  Hypothesis HS : P + d < ts.
  Hypothesis HC : P + 2 * d < tc.
  Notation step := (step tc ts (Some d)).
  Notation run := (run tc ts (Some d)).

  Definition first (l : list Z) (e : Z) : Z := match l with [] => e | x :: _ => x end.
  Fixpoint chain (l : list Z) (e : Z) : Prop := match l with [] => True | x :: r => x + P = first r e /\ chain r e end.
  Lemma first_snoc l e e' : first (l ++ [e]) e' = first l e.
  Proof. now destruct l. Qed.
  Lemma chain_snoc l e : chain l e -> chain (l ++ [e]) (e + P).
  Proof. induction l as [|x l IH]; cbn; [auto|]. intros (H1 & H2). rewrite first_snoc. auto. Qed.
  Lemma first_app a b e : first (a ++ b) e = first a (first b e).
  Proof. now destruct a. Qed.
  (** [xs]: when the echos were sent whose replies are under way *)
  Definition replies (t : Z) (xs ys : list Z) : Prop := Forall2 (fun x y => x <= y <= x + d /\ y <= t) xs ys.
  Record inv (s : st) : Prop := {
    i_now : tick s - P <= now s <= tick s;
    i_lo : Forall (fun x => x <= now s) (to_server s);
    i_hi : match to_server s with x :: _ => now s <= x + d | [] => True end;
    i_hc : match to_client s with y :: _ => now s <= y + d | [] => True end;
    i_s : first (to_server s) (tick s) <= s_last s + P;
    i_sl : s_last s <= now s /\ c_last s <= now s;
    i_c : exists xs, replies (now s) xs (to_client s) /\ chain (xs ++ to_server s) (tick s) /\ first (xs ++ to_server s) (tick s) <= c_last s + P;
    i_up : dropped s = None;
    i_ord : StronglySorted Z.le (to_client s) /\ Forall (fun y => y <= now s) (to_client s) }.
  Lemma chain_app a b e : chain (a ++ b) e -> chain b e.
  Proof. induction a as [|x a IH]; cbn; [auto|]. intros (_ & H). auto. Qed.
  Lemma chain_ge l e : chain l e -> first l e <= e.
  Proof. pose proof (period_pos tc) as PP. unfold sec in PP. induction l as [|x l IH]; cbn [chain first]; [lia|]. intros (H1 & H2). specialize (IH H2). lia. Qed.
  Lemma inv_init t : inv (init tc t).
  Proof.
    pose proof (period_pos tc) as PP. unfold sec in PP. split; cbn; try exact I; try lia; try constructor; try constructor. exists []. split; [constructor|]. split; [exact I|]. cbn. lia.
  Qed.
  Lemma sorted_snoc l t : StronglySorted Z.le l -> Forall (fun y => y <= t) l -> StronglySorted Z.le (l ++ [t]) /\ Forall (fun y => y <= t) (l ++ [t]).
  Proof.
    intros H F. split; [|apply Forall_app; split; [exact F|constructor; [lia|constructor]]]. induction H as [|x l H IH L]; cbn [app]; [constructor; constructor|].
    inversion F as [|? ? F1 F2]; subst. constructor; [auto|]. apply Forall_app. split; [exact L|constructor; [exact F1|constructor]].
  Qed.
  Lemma replies_mono t t' xs ys : t <= t' -> replies t xs ys -> replies t' xs ys.
  Proof. intros L H. induction H as [|x y xs ys H F IH]; constructor; [lia|exact IH]. Qed.
  Lemma late s : inv s -> now s < s_last s + ts /\ now s < c_last s + tc.
  Proof.
    intros [N LO HI HCC S SL (xs & R & CH & C) U (O1 & O2)]. split.
    - destruct (to_server s) as [|x r]; cbn [first] in S; lia.
    - destruct xs as [|x xs]; cbn [app] in C.
      + destruct (to_server s) as [|x r]; cbn [first] in C; lia.
      + inversion R as [|? y ? ys R1 R2 E1 E2]; subst. rewrite <- E2 in HCC. cbn [first] in C. lia.
  Qed.
  Lemma inv_step s e s' : inv s -> step s e = Some s' -> inv s'.
  Proof.
    intros I S0. pose proof (late s I) as (LS & LC). pose proof I as [N LO HI HCC S SL (xs & R & CH & C) U (O1 & O2)]. pose proof (period_pos tc) as PP. unfold sec in PP.
    unfold KeepModel.step in S0. rewrite U in S0. destruct e as [w| | | |[]|[]].
    - destruct ((0 <? w) && may_wait tc ts (Some d) s (now s + w)) eqn:E; [|discriminate]. injection S0 as <-. unfold may_wait, by_then in E. rewrite !andb_true_iff in E.
      destruct E as (W & (((E1 & E2) & E3) & E4) & E5). split; cbn [now tick c_last s_last to_server to_client dropped]; auto; try lia.
      + eapply Forall_impl; [|exact LO]. cbn. intros; lia.
      + destruct (to_server s); [exact Logic.I|lia].
      + destruct (to_client s); [exact Logic.I|lia].
      + exists xs. split; [eapply replies_mono; [|exact R]; lia|]. split; [exact CH|exact C].
      + split; [exact O1|]. eapply Forall_impl; [|exact O2]. cbn. intros; lia.
    - destruct (now s =? tick s) eqn:E; [|discriminate]. injection S0 as <-. apply Z.eqb_eq in E. split; cbn [now tick c_last s_last to_server to_client dropped]; auto; try lia.
      + apply Forall_app. split; [exact LO|]. constructor; [lia|constructor].
      + destruct (to_server s); cbn [app]; lia.
      + rewrite first_snoc. rewrite E. exact S.
      + exists xs. split; [exact R|]. rewrite app_assoc, E, first_snoc. split; [now apply chain_snoc|exact C].
    - destruct (to_server s) as [|x r] eqn:T; [discriminate|]. injection S0 as <-. inversion LO as [|? ? L1 L2]; subst.
      assert (XR : x + P = first r (tick s) /\ chain r (tick s)) by (apply chain_app in CH; exact CH). destruct XR as (XR & CR).
      split; cbn [now tick c_last s_last to_server to_client dropped]; auto; try lia.
      + destruct r as [|x' r]; [exact Logic.I|]. cbn [first] in XR. lia.
      + destruct (to_client s); cbn [app]; lia.
      + exists (xs ++ [x]). split; [apply Forall2_app; [exact R|constructor; [lia|constructor]]|]. rewrite <- app_assoc. split; [exact CH|exact C].
      + now apply sorted_snoc.
    - destruct (to_client s) as [|y r] eqn:T; [discriminate|]. injection S0 as <-. inversion R as [|x ? xs' ? R1 R2]; subst. cbn [app chain first] in CH, C. destruct CH as (CH1 & CH2).
      split; cbn [now tick c_last s_last to_server to_client dropped]; auto; try lia.
      + destruct r as [|y' r]; [exact Logic.I|]. inversion O1 as [|? ? _ O3]; subst. inversion O3; subst. lia.
      + exists xs'. split; [exact R2|]. split; [exact CH2|]. lia.
      + inversion O1; inversion O2; subst. auto.
    - injection S0 as <-. split; cbn [now tick c_last s_last to_server to_client dropped]; auto; try lia. exists xs. split; [exact R|]. split; [exact CH|]. lia.
    - injection S0 as <-. split; cbn [now tick c_last s_last to_server to_client dropped]; auto; try lia. exists xs. split; [exact R|]. split; [exact CH|exact C].
    - destruct (now s =? c_last s + tc) eqn:E; [lia|discriminate].
    - destruct (now s =? s_last s + ts) eqn:E; [lia|discriminate].
  Qed.
  Lemma inv_run es : forall s s', inv s -> run s es = Some s' -> inv s'.
  Proof.
    induction es as [|e es IH]; intros s s' I R; cbn [KeepModel.run] in R; [now injection R as <-|]. destruct (step s e) as [s1|] eqn:E; [|discriminate]. eapply IH; [|exact R]. eapply inv_step; eauto.
  Qed.
End Keep.

Section Any.
  Variables tc ts : Z.
  Variable delay : option Z.
  Hypothesis TC : 0 < tc.
  Hypothesis TS : 0 < ts.
  Notation step := (step tc ts delay).
  Notation run := (run tc ts delay).
  Definition fine (s : st) : Prop :=
    now s <= tick s /\ c_last s <= now s <= c_last s + tc /\ s_last s <= now s <= s_last s + ts.
  Lemma fine_init t : fine (init tc t).
  Proof. pose proof (period_pos tc) as PP. unfold sec in PP. unfold fine. cbn. lia. Qed.
  Lemma fine_step s e s' : fine s -> step s e = Some s' -> fine s'.
  Proof.
    pose proof (period_pos tc) as PP. unfold sec in PP. unfold fine. intros F S. unfold KeepModel.step in S. destruct (dropped s); [discriminate|]. destruct e as [w| | | |[]|[]].
    - destruct ((0 <? w) && may_wait tc ts delay s (now s + w)) eqn:E; [|discriminate]. injection S as <-. unfold may_wait in E. rewrite !andb_true_iff in E. cbn. lia.
    - destruct (now s =? tick s) eqn:E; [|discriminate]. injection S as <-. cbn. lia.
    - destruct (to_server s); [discriminate|]. injection S as <-. cbn. lia.
    - destruct (to_client s); [discriminate|]. injection S as <-. cbn. lia.
    - injection S as <-. cbn. lia.
    - injection S as <-. cbn. lia.
    - destruct (now s =? c_last s + tc) eqn:E; [|discriminate]. injection S as <-. cbn. lia.
    - destruct (now s =? s_last s + ts) eqn:E; [|discriminate]. injection S as <-. cbn. lia.
  Qed.
  Lemma fine_run es : forall s s', fine s -> run s es = Some s' -> fine s'.
  Proof.
    induction es as [|e es IH]; intros s s' I R; cbn [KeepModel.run] in R; [now injection R as <-|]. destruct (step s e) as [s1|] eqn:E; [|discriminate]. eapply IH; [|exact R]. eapply fine_step; eauto.
  Qed.
  Lemma run_app a : forall b s, run s (a ++ b) = match run s a with Some s1 => run s1 b | None => None end.
  Proof. induction a as [|e a IH]; intros b s; cbn [app KeepModel.run]; [reflexivity|]. destruct (step s e); [apply IH|reflexivity]. Qed.

  (** Nothing is received *)
  Definition limit_of (p : peer) : Z := match p with Client => tc | Server => ts end.
  Lemma deaf_step p s e s' : hears p e = false -> step s e = Some s' -> last_of p s' = last_of p s.
  Proof.
    intros H S. unfold KeepModel.step in S. destruct (dropped s); [discriminate|].
    destruct p, e as [w| | | |[]|[]]; cbn in H; try discriminate H;
    repeat match type of S with context[if ?b then _ else _] => destruct b; try discriminate S | context[match ?l with [] => _ | _ :: _ => _ end] => destruct l; try discriminate S end;
    injection S as <-; reflexivity.
  Qed.
  Lemma deaf_run p es : forall s s', forallb (fun e => negb (hears p e)) es = true -> run s es = Some s' -> last_of p s' = last_of p s.
  Proof.
    induction es as [|e es IH]; intros s s' D R; cbn [KeepModel.run] in R; [now injection R as <-|]. cbn [forallb] in D. apply andb_true_iff in D. destruct D as (D1 & D2). destruct (step s e) as [s1|] eqn:E; [|discriminate].
    rewrite (IH _ _ D2 R). eapply deaf_step; [|exact E]. now apply negb_true_iff.
  Qed.
  Lemma noticed p s es s' : fine s -> forallb (fun e => negb (hears p e)) es = true -> run s es = Some s' -> now s' <= last_of p s + limit_of p.
  Proof. intros F D R. pose proof (fine_run _ _ _ F R) as (_ & C & S). pose proof (deaf_run p _ _ _ D R) as L. rewrite <- L. destruct p; cbn; lia. Qed.

  Lemma wait1 s : fine s -> dropped s = None -> by_then delay (to_server s) (now s + 1) = true -> by_then delay (to_client s) (now s + 1) = true ->
    now s < tick s -> exists e s', step s e = Some s' /\ (forall p, hears p e = false) /\ (dropped s' <> None \/ now s < now s').
  Proof.
    intros (F1 & F2 & F3) U B1 B2 L. destruct (Z.eqb_spec (now s) (c_last s + tc)) as [E1|E1].
    - exists (Expire Client). unfold KeepModel.step. rewrite U. eexists. split; [replace (now s =? c_last s + tc) with true by lia; reflexivity|]. split; [now intros []|]. left. cbn. discriminate.
    - destruct (Z.eqb_spec (now s) (s_last s + ts)) as [E2|E2].
      + exists (Expire Server). unfold KeepModel.step. rewrite U. eexists. split; [replace (now s =? s_last s + ts) with true by lia; reflexivity|]. split; [now intros []|]. left. cbn. discriminate.
      + exists (Wait 1). unfold KeepModel.step. rewrite U. eexists. split; [|split; [now intros []|right]].
        * unfold may_wait. rewrite B1, B2. replace (_ && _) with true; [reflexivity|]. symmetry. rewrite !andb_true_iff. lia.
        * cbn. lia.
  Qed.
End Any.

(** With the network gone, time goes on until the connection is dropped. *)
Lemma silent_progress tc ts s : 0 < tc -> 0 < ts -> fine tc ts s -> dropped s = None ->
  exists es s', run tc ts None s es = Some s' /\ (forall p, forallb (fun e => negb (hears p e)) es = true) /\ (dropped s' <> None \/ now s < now s').
Proof.
  intros TC TS F U. pose proof (period_pos tc) as PP. unfold sec in PP. destruct (Z.eqb_spec (now s) (tick s)) as [E|E].
  - set (s1 := {| now := now s; tick := tick s + echo_period tc; c_last := c_last s; s_last := s_last s; to_server := to_server s ++ [now s]; to_client := to_client s; dropped := None |}).
    assert (S1 : step tc ts None s Echo = Some s1) by (unfold step; rewrite U; replace (now s =? tick s) with true by lia; reflexivity).
    destruct (wait1 tc ts None s1) as (e & s' & S2 & H & P).
    + eapply fine_step; [exact TC|exact TS|exact F|exact S1].
    + reflexivity.
    + unfold by_then. now destruct (to_server s1).
    + unfold by_then. now destruct (to_client s1).
    + cbn. lia.
    + exists [Echo; e], s'. cbn [run]. rewrite S1, S2. split; [reflexivity|]. split; [|exact P]. intro p. cbn [forallb]. rewrite H. now destruct p.
  - destruct (wait1 tc ts None s F U) as (e & s' & S2 & H & P).
    + unfold by_then. now destruct (to_server s).
    + unfold by_then. now destruct (to_client s).
    + destruct F. lia.
    + exists [e], s'. cbn [run]. rewrite S2. split; [reflexivity|]. split; [|exact P]. intro p. cbn [forallb]. now rewrite H.
Qed.
(** With the network up, too. *)
Definition quiet (s : st) : Prop := to_server s = [] /\ to_client s = [].
Lemma drain tc ts dl : forall n s, dropped s = None -> (length (to_server s) + length (to_server s) + length (to_client s) <= n)%nat ->
  exists es s', run tc ts dl s es = Some s' /\ quiet s' /\ dropped s' = None /\ now s' = now s /\ tick s' = tick s.
Proof.
  induction n as [|n IH]; intros s U L.
  - exists [], s. unfold quiet. destruct (to_server s) eqn:E1, (to_client s) eqn:E2; cbn in L; try lia. cbn. auto.
  - destruct (to_server s) as [|x r] eqn:E1; [destruct (to_client s) as [|y q] eqn:E2|].
    + exists [], s. unfold quiet. cbn. auto.
    + set (s1 := {| now := now s; tick := tick s; c_last := now s; s_last := s_last s; to_server := to_server s; to_client := q; dropped := None |}).
      assert (S1 : step tc ts dl s AtClient = Some s1) by (unfold step; rewrite U, E2; reflexivity).
      destruct (IH s1) as (es & s' & R & Q & U' & N & K); [reflexivity|cbn [s1 to_server to_client]; rewrite E1; cbn in *; lia|].
      exists (AtClient :: es), s'. cbn [run]. rewrite S1. split; [exact R|]. split; [exact Q|]. split; [exact U'|]. rewrite N, K. auto.
    + set (s1 := {| now := now s; tick := tick s; c_last := c_last s; s_last := now s; to_server := r; to_client := to_client s ++ [now s]; dropped := None |}).
      assert (S1 : step tc ts dl s AtServer = Some s1) by (unfold step; rewrite U, E1; reflexivity).
      destruct (IH s1) as (es & s' & R & Q & U' & N & K); [reflexivity|cbn [s1 to_server to_client]; rewrite app_length; cbn in *; lia|].
      exists (AtServer :: es), s'. cbn [run]. rewrite S1. split; [exact R|]. split; [exact Q|]. split; [exact U'|]. rewrite N, K. auto.
Qed.
Lemma progress tc ts dl s : 0 < tc -> 0 < ts -> fine tc ts s -> dropped s = None ->
  exists es s', run tc ts dl s es = Some s' /\ (dropped s' <> None \/ now s < now s').
Proof.
  intros TC TS F U. pose proof (period_pos tc) as PP. unfold sec in PP.
  assert (X : exists es s1, run tc ts dl s es = Some s1 /\ dropped s1 = None /\ now s1 = now s /\ now s1 < tick s1).
  { destruct (Z.eqb_spec (now s) (tick s)) as [E|E].
    - set (s1 := {| now := now s; tick := tick s + echo_period tc; c_last := c_last s; s_last := s_last s; to_server := to_server s ++ [now s]; to_client := to_client s; dropped := None |}).
      assert (S1 : step tc ts dl s Echo = Some s1) by (unfold step; rewrite U; replace (now s =? tick s) with true by lia; reflexivity).
      exists [Echo], s1. cbn [run]. rewrite S1. split; [reflexivity|]. cbn. split; [reflexivity|]. lia.
    - exists [], s. cbn. destruct F. split; [reflexivity|]. split; [exact U|]. lia. }
  destruct X as (e1 & s1 & R1 & U1 & N1 & L1). destruct (drain tc ts dl _ s1 U1 (le_n _)) as (e2 & s2 & R2 & (Q1 & Q2) & U2 & N2 & K2).
  assert (F2 : fine tc ts s2) by (eapply fine_run; [exact TC|exact TS| |exact R2]; eapply fine_run; [exact TC|exact TS|exact F|exact R1]).
  destruct (wait1 tc ts dl s2 F2 U2) as (e & s' & S3 & _ & P).
  - now rewrite Q1. - now rewrite Q2. - lia.
  - exists (e1 ++ e2 ++ [e]), s'. rewrite run_app, R1, run_app, R2. cbn [run]. rewrite S3. split; [reflexivity|]. rewrite <- N1, <- N2. exact P.
Qed.
