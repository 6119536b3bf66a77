(** Proofs about the receive side of a TCP connection. *)
From Coq Require Import ZArith List Bool Lia ZifyBool ZifyNat.
From Verif Require Import Base BaseProofs WireModel WireSpec WireProofs ConnModel ConnSpec.
Import ListNotations.
Local Open Scope Z_scope.

Section Conn.
  Variable H : Type.
  Variable handle : H -> bool -> msg -> option H.
  Variable is_client : bool.
  Variable readahead : Z.
  Variable host : bool.
  Notation turn := (turn H handle is_client readahead host).
  Notation loop f := (loop H handle is_client readahead f host).
  Notation bev := (bev_read H handle is_client readahead host).
  Notation feed := (feed H handle is_client readahead host).
  Notation feeds := (feeds H handle is_client readahead host).

  Definition mark (lo hi : Z) (c : link) : link :=
    {| l_up := l_up c; l_send := l_send c; l_peer := l_peer c; l_ver := l_ver c; l_expect := l_expect c; l_segcmd := l_segcmd c; l_seg := l_seg c;
       l_rx := l_rx c; l_low := lo; l_high := hi |}.
  Definition marks (r : turned H) (lo hi : Z) : turned H :=
    match r with Next _ c h o => Next _ (if l_up c then mark lo hi c else c) h o | Wait _ c => Wait _ c end.

  Lemma zl : forall A (l : list A), zlen l = Z.of_nat (length l). Proof. reflexivity. Qed.
  Lemma nth_more : forall i (a b : list Z), (i < length a)%nat -> nth i (a ++ b) 0 = nth i a 0.
  Proof. intros. apply app_nth1. assumption. Qed.
  Lemma head_more : forall (a b : list Z), (8 <= length a)%nat -> firstn 4 (skipn 4 (a ++ b)) = firstn 4 (skipn 4 a).
  Proof.
    intros. rewrite skipn_app, firstn_app, skipn_length. replace (4 - (length a - 4))%nat with 0%nat by lia. rewrite firstn_O, app_nil_r. reflexivity.
  Qed.
  Lemma length_more : forall be b c, l_up c = true -> (8 <= length (l_rx c))%nat -> length_of host be (more b c) = length_of host be c.
  Proof. intros be b c U N. unfold length_of, more. rewrite U. cbn [l_rx]. rewrite head_more by exact N. reflexivity. Qed.
  Lemma next_inj : forall c h o c' h' o', Next H c h o = Next H c' h' o' -> c = c' /\ h = h' /\ o = o'.
  Proof. intros. inversion H0. auto. Qed.
  Lemma wait_inj : forall c c', Wait H c = Wait H c' <-> c' = c.
  Proof. intros. split; [intros E; inversion E; auto|intros ->; auto]. Qed.
  Lemma turn_more : forall c h c' h' o b, l_up c = true -> turn c h = Next _ c' h' o -> turn (more b c) h = Next _ (more b c') h' o.
  Proof.
    intros c h c' h' o b U. unfold ConnModel.turn.
    destruct (zlen (l_rx c) <? 8) eqn:L; [discriminate|]. rewrite zl in L.
    assert (L' : (zlen (l_rx (more b c)) <? 8) = false) by (unfold more; rewrite U; cbn [l_rx]; rewrite zl, app_length; lia). rewrite L'.
    assert (BY : forall i, (i < 8)%nat -> byte i (more b c) = byte i c) by (intros i Hi; unfold byte, more; rewrite U; cbn [l_rx]; apply nth_more; lia).
    rewrite !BY by lia. cbn zeta.
    assert (CL : forall c, more b (closed c) = closed c) by reflexivity.
    assert (CM : closed (more b c) = closed c) by (unfold more; rewrite U; reflexivity).
    destruct (_ || _) eqn:B1. { intros E; apply next_inj in E as (<- & <- & <-). rewrite CL, CM. reflexivity. }
    assert (SK : forall n, (n <= length (l_rx c))%nat -> skipn n (l_rx c ++ b) = skipn n (l_rx c) ++ b).
    { intros n Hn. rewrite skipn_app. replace (n - length (l_rx c))%nat with 0%nat by lia. reflexivity. }
    destruct (flag flag_Control (byte 2 c)) eqn:B2.
    { intros E; apply next_inj in E as (<- & <- & <-). unfold more. rewrite U. cbn [l_up l_send l_peer l_ver l_expect l_segcmd l_seg l_rx l_low l_high]. rewrite SK by lia. reflexivity. }
    rewrite length_more by (assumption || lia).
    set (len := length_of host (flag flag_MSB (byte 2 c)) c).
    destruct (zlen (l_rx c) - 8 <? len) eqn:B3; [discriminate|]. rewrite zl in B3.
    assert (B3' : (zlen (l_rx (more b c)) - 8 <? len) = false) by (unfold more; rewrite U; cbn [l_rx]; rewrite zl, app_length; lia). rewrite B3'.
    assert (R : l_rx (more b c) = l_rx c ++ b) by (unfold more; rewrite U; reflexivity).
    assert (R1 : firstn (Z.to_nat len) (skipn 8 (l_rx (more b c))) = firstn (Z.to_nat len) (skipn 8 (l_rx c))).
    { rewrite R, SK by lia. rewrite firstn_app, skipn_length. replace (Z.to_nat len - (length (l_rx c) - 8))%nat with 0%nat by lia. rewrite firstn_O, app_nil_r. reflexivity. }
    assert (R2 : skipn (Z.to_nat len) (skipn 8 (l_rx (more b c))) = skipn (Z.to_nat len) (skipn 8 (l_rx c)) ++ b).
    { rewrite R, SK by lia. rewrite skipn_app, skipn_length. replace (Z.to_nat len - (length (l_rx c) - 8))%nat with 0%nat by lia. reflexivity. }
    rewrite R1, R2.
    assert (F : l_expect (more b c) = l_expect c /\ l_segcmd (more b c) = l_segcmd c /\ l_seg (more b c) = l_seg c /\ l_send (more b c) = l_send c /\ l_up (more b c) = l_up c /\ l_low (more b c) = l_low c /\ l_high (more b c) = l_high c).
    { unfold more; rewrite U; cbn; auto 10. }
    destruct F as (F1 & F2 & F3 & F4 & F5 & F6 & F7). rewrite F1, F2, F3, F4, F5, F6, F7, U.
    destruct (xorb (flag flag_SegLast _) _ || _) eqn:B4. { intros E; apply next_inj in E as (<- & <- & <-). reflexivity. }
    destruct ((_ =? 0) || (_ =? flag_SegLast)) eqn:B5.
    - destruct (known _) eqn:B6; [|intros E; apply next_inj in E as (<- & <- & <-); reflexivity].
      destruct (handle _ _ _) eqn:B7; intros E; apply next_inj in E as (<- & <- & <-); reflexivity.
    - intros E; apply next_inj in E as (<- & <- & <-); reflexivity.
  Qed.
  (** marks do not matter but to [feed] *)
  Lemma turn_mark : forall lo hi c h, turn (mark lo hi c) h = marks (turn c h) lo hi \/ l_up c = false.
  Proof.
    intros lo hi c h. destruct (l_up c) eqn:U; [left|auto]. unfold ConnModel.turn.
    change (l_rx (mark lo hi c)) with (l_rx c). destruct (zlen (l_rx c) <? 8); [reflexivity|].
    change (byte 0 (mark lo hi c)) with (byte 0 c). change (byte 1 (mark lo hi c)) with (byte 1 c). change (byte 2 (mark lo hi c)) with (byte 2 c). change (byte 3 (mark lo hi c)) with (byte 3 c).
    cbn zeta. destruct (negb _ || _ || xorb is_client _); [reflexivity|]. destruct (flag flag_Control _). { unfold marks, mark. cbn. rewrite U. reflexivity. }
    change (length_of host (flag flag_MSB (byte 2 c)) (mark lo hi c)) with (length_of host (flag flag_MSB (byte 2 c)) c).
    destruct (_ - 8 <? _); [reflexivity|]. unfold mark. cbn [l_up l_send l_peer l_ver l_expect l_segcmd l_seg l_rx l_low l_high]. rewrite U.
    destruct (xorb (flag flag_SegLast _) _ || _); [reflexivity|]. destruct ((_ =? 0) || (_ =? flag_SegLast)); [|reflexivity].
    destruct (known _); [|reflexivity]. destruct (handle _ _ _); reflexivity.
  Qed.
  Lemma turn_shrinks : forall c h c' h' o, turn c h = Next _ c' h' o -> l_up c' = true -> (length (l_rx c') + 8 <= length (l_rx c))%nat.
  Proof.
    intros c h c' h' o. unfold ConnModel.turn. destruct (zlen (l_rx c) <? 8) eqn:L; [discriminate|]. rewrite zl in L. cbn zeta.
    destruct (negb _ || _ || xorb is_client _); [intros E; apply next_inj in E as (<- & <- & <-); discriminate|].
    destruct (flag flag_Control _). { intros E; apply next_inj in E as (<- & <- & <-); intros _. cbn [l_rx]. rewrite skipn_length. lia. }
    destruct (_ - 8 <? _); [discriminate|].
    destruct (xorb (flag flag_SegLast _) _ || _); [intros E; apply next_inj in E as (<- & <- & <-); discriminate|].
    assert (X : forall n, (length (skipn n (skipn 8 (l_rx c))) + 8 <= length (l_rx c))%nat) by (intros n; rewrite !skipn_length; lia).
    destruct ((_ =? 0) || (_ =? flag_SegLast)); [destruct (known _); [destruct (handle _ _ _)|]|]; intros E; apply next_inj in E as (<- & <- & <-); try discriminate; intros _; apply X.
  Qed.
  Lemma loop_fuel : forall n m c h, (length (l_rx c) + 1 < n)%nat -> (length (l_rx c) + 1 < m)%nat -> loop n c h = loop m c h.
  Proof.
    induction n as [|n IH]; intros m c h A B; [lia|]. destruct m as [|m]; [lia|]. cbn [ConnModel.loop]. destruct (l_up c) eqn:U; [|reflexivity].
    destruct (turn c h) as [c'|c' h' o] eqn:T; [reflexivity|]. destruct (l_up c') eqn:U'.
    - pose proof (turn_shrinks _ _ _ _ _ T U'). rewrite (IH m) by lia. reflexivity.
    - destruct n, m; cbn [ConnModel.loop]; rewrite ?U'; try reflexivity; lia.
  Qed.
  Lemma bev_turn : forall c h, bev c h =
    if l_up c then match turn c h with Wait _ c' => (c', h, []) | Next _ c' h' o => let '(c2, h2, o2) := bev c' h' in (c2, h2, o ++ o2) end else (c, h, []).
  Proof.
    intros. unfold bev_read at 1. remember (S (length (l_rx c))) as f. cbn [ConnModel.loop]. destruct (l_up c) eqn:U; [|reflexivity]. subst f.
    destruct (turn c h) as [c'|c' h' o] eqn:T; [reflexivity|]. unfold bev_read. destruct (l_up c') eqn:U'.
    - pose proof (turn_shrinks _ _ _ _ _ T U'). rewrite (loop_fuel (S (length (l_rx c))) (S (S (length (l_rx c'))))) by lia. reflexivity.
    - cbn [ConnModel.loop]. rewrite U'. reflexivity.
  Qed.
  Lemma bev_mark : forall n lo hi c h, (length (l_rx c) < n)%nat -> l_up c = true -> bev (mark lo hi c) h = bev c h.
  Proof.
    induction n as [|n IH]; intros lo hi c h N U; [lia|]. rewrite (bev_turn (mark lo hi c)), (bev_turn c). cbn [mark l_up]. rewrite U.
    destruct (turn_mark lo hi c h) as [E|E]; [|congruence]. rewrite E. destruct (turn c h) as [c'|c' h' o] eqn:T; [reflexivity|]. cbn [marks].
    destruct (l_up c') eqn:U'; [|reflexivity]. pose proof (turn_shrinks _ _ _ _ _ T U'). rewrite IH by (assumption || lia). reflexivity.
  Qed.
  (** what waiting means *)
  Definition repeer (p : bool) (v : Z) (c : link) : link :=
    {| l_up := l_up c; l_send := l_send c; l_peer := p; l_ver := v; l_expect := l_expect c; l_segcmd := l_segcmd c; l_seg := l_seg c;
       l_rx := l_rx c; l_low := l_low c; l_high := l_high c |}.
  Definition app_head (c : link) : Prop :=
    (8 <= length (l_rx c))%nat /\ (negb (byte 0 c =? 202) || (byte 1 c =? 0) || xorb is_client (flag flag_Server (byte 2 c))) = false /\
    flag flag_Control (byte 2 c) = false.
  Definition low_of (len : Z) : Z := (8 + len) mod 2 ^ 32.
  Definition high_of (lo : Z) : Z := if lo <? 2 ^ 64 - 1 - readahead then lo + readahead else lo.
  Definition len_of (c : link) : Z := length_of host (flag flag_MSB (byte 2 c)) c.
  Lemma turn_wait : forall c h c', turn c h = Wait _ c' <->
    ((length (l_rx c) < 8)%nat /\ c' = mark 8 readahead c) \/
    (app_head c /\ zlen (l_rx c) - 8 < len_of c /\
     c' = mark (low_of (len_of c)) (high_of (low_of (len_of c))) (repeer (flag flag_MSB (byte 2 c)) (byte 1 c) c)).
  Proof.
    intros c h c'. unfold ConnModel.turn, app_head, len_of. destruct (zlen (l_rx c) <? 8) eqn:L; rewrite zl in L.
    - rewrite wait_inj. split; [intros ->; left; split; [lia|reflexivity]|]. intros [(_ & ->)|((X & _) & _)]; [reflexivity|lia].
    - cbn zeta. destruct (negb _ || _ || xorb is_client _); [split; [discriminate|]; intros [(X & _)|((_ & X & _) & _)]; [lia|discriminate]|].
      destruct (flag flag_Control _); [split; [discriminate|]; intros [(X & _)|((_ & _ & X) & _)]; [lia|discriminate]|].
      destruct (_ - 8 <? _) eqn:B3; rewrite ?zl in *.
      + rewrite wait_inj. unfold mark, repeer, high_of, low_of. cbn [l_up l_send l_expect l_segcmd l_seg l_rx l_peer l_ver]. split; [intros ->; right; split; [repeat split; lia|split; [lia|reflexivity]]|intros [(X & _)|(_ & _ & ->)]; [lia|reflexivity]].
      + destruct (xorb (flag flag_SegLast _) _ || _); [split; [discriminate|]; intros [(X & _)|(_ & X & _)]; lia|].
        destruct ((_ =? 0) || (_ =? flag_SegLast)); [destruct (known _); [destruct (handle _ _ _)|]|]; (split; [discriminate|]; intros [(X & _)|(_ & X & _)]; lia).
  Qed.
  Lemma turn_repeer : forall p v c h, app_head c -> turn (repeer p v c) h = turn c h \/
    exists c', turn c h = Wait _ c' /\ turn (repeer p v c) h = Wait _ c'.
  Proof.
    intros p v c h (A & B & C). left. unfold ConnModel.turn. change (l_rx (repeer p v c)) with (l_rx c).
    change (byte 0 (repeer p v c)) with (byte 0 c). change (byte 1 (repeer p v c)) with (byte 1 c). change (byte 2 (repeer p v c)) with (byte 2 c). change (byte 3 (repeer p v c)) with (byte 3 c).
    cbn zeta. rewrite B, C. assert (L : (zlen (l_rx c) <? 8) = false) by (rewrite zl; lia). rewrite L. reflexivity.
  Qed.
  Lemma app_head_more : forall b c, l_up c = true -> app_head c -> app_head (more b c) /\ len_of (more b c) = len_of c /\ byte 1 (more b c) = byte 1 c /\ byte 2 (more b c) = byte 2 c.
  Proof.
    intros b c U (A & B & C).
    assert (BY : forall i, (i < 8)%nat -> byte i (more b c) = byte i c) by (intros i Hi; unfold byte, more; rewrite U; cbn [l_rx]; apply nth_more; lia).
    unfold app_head, len_of. rewrite !BY by lia. rewrite length_more by assumption. repeat split; try assumption.
    unfold more; rewrite U; cbn [l_rx]; rewrite app_length; lia.
  Qed.
  Lemma more_up : forall b c, l_up (more b c) = l_up c.
  Proof. intros. unfold more. destruct (l_up c) eqn:U; cbn; auto. Qed.
  Lemma bev_waited : forall c h c' b, l_up c = true -> turn c h = Wait _ c' -> bev (more b c') h = bev (more b c) h.
  Proof.
    intros c h c' b U T. apply turn_wait in T as [(_ & ->)|(A & _ & ->)].
    - assert (X : more b (mark 8 readahead c) = mark 8 readahead (more b c)) by (unfold more; cbn; rewrite U; reflexivity).
      rewrite X. eapply bev_mark; [constructor|rewrite more_up; exact U].
    - set (lo := low_of _). set (hi := high_of _).
      assert (X : more b (mark lo hi (repeer (flag flag_MSB (byte 2 c)) (byte 1 c) c)) = mark lo hi (repeer (flag flag_MSB (byte 2 c)) (byte 1 c) (more b c)))
        by (unfold more; cbn; rewrite U; reflexivity).
      rewrite X. erewrite bev_mark; [|constructor|cbn; rewrite more_up; exact U].
      rewrite (bev_turn (repeer _ _ _)), (bev_turn (more b c)). cbn [repeer l_up]. rewrite more_up, U.
      destruct (app_head_more b c U A) as (A' & _). destruct (turn_repeer (flag flag_MSB (byte 2 c)) (byte 1 c) _ h A') as [E|(d & E1 & E2)].
      + rewrite E. reflexivity.
      + rewrite E1, E2. reflexivity.
  Qed.
  Lemma bev_split : forall n c h b, (length (l_rx c) < n)%nat -> l_up c = true ->
    bev (more b c) h = let '(c1, h1, o1) := bev c h in let '(c2, h2, o2) := bev (more b c1) h1 in (c2, h2, o1 ++ o2).
  Proof.
    induction n as [|n IH]; intros c h b N U; [lia|]. rewrite (bev_turn c), U. destruct (turn c h) as [c'|c' h' o] eqn:T.
    - rewrite (bev_waited _ _ _ b U T). destruct (bev (more b c) h) as [[c2 h2] o2]. reflexivity.
    - rewrite (bev_turn (more b c)), more_up, U, (turn_more _ _ _ _ _ b U T). destruct (l_up c') eqn:U'.
      + pose proof (turn_shrinks _ _ _ _ _ T U'). rewrite IH by (assumption || lia). destruct (bev c' h') as [[c1 h1] o1].
        destruct (bev (more b c1) h1) as [[c2 h2] o2]. rewrite app_assoc. reflexivity.
      + assert (X : more b c' = c') by (unfold more; rewrite U'; reflexivity). rewrite X, (bev_turn c'), U', X, (bev_turn c'), U'. rewrite !app_nil_r. reflexivity.
  Qed.
  (** between reads the connection waits *)
  Definition waiting (c : link) : Prop := l_up c = true -> forall h, turn c h = Wait _ c.
  Lemma wait_wait : forall c h c', l_up c = true -> turn c h = Wait _ c' -> waiting c'.
  Proof.
    intros c h c' U T _ h'. apply turn_wait. apply turn_wait in T as [(A & ->)|(A & B & ->)].
    - left. split; [exact A|reflexivity].
    - right. split; [exact A|]. split; [exact B|reflexivity].
  Qed.
  Lemma bev_waits : forall n c h, (length (l_rx c) < n)%nat -> l_up c = true -> waiting (fst (fst (bev c h))).
  Proof.
    induction n as [|n IH]; intros c h N U; [lia|]. rewrite bev_turn, U. destruct (turn c h) as [c'|c' h' o] eqn:T.
    - eapply wait_wait; eassumption.
    - destruct (l_up c') eqn:U'.
      + pose proof (turn_shrinks _ _ _ _ _ T U'). specialize (IH c' h' ltac:(lia) U'). destruct (bev c' h') as [[c2 h2] o2]. exact IH.
      + rewrite bev_turn, U'. intros Q. cbn in Q. congruence.
  Qed.
  Lemma feed_bev : forall c h b, waiting c -> feed c h b = bev (more b c) h.
  Proof.
    intros c h b Wc. unfold ConnModel.feed. destruct (l_up c) eqn:U; cbn [negb].
    - destruct (zlen _ <? l_low _) eqn:L; [|reflexivity]. specialize (Wc U h). rewrite bev_turn, more_up, U.
      assert (T : turn (more b c) h = Wait _ (more b c)).
      { apply turn_wait. apply turn_wait in Wc as [(A & B)|(A & B & C)].
        - left. assert (LO : l_low (more b c) = 8) by (unfold more; rewrite U; cbn; rewrite B; reflexivity). rewrite LO, zl in L.
          split; [lia|]. unfold more in *. rewrite U in *. rewrite B at 1. unfold mark. cbn. reflexivity || (rewrite B; reflexivity).
        - right. destruct (app_head_more b c U A) as (A' & L1 & L2 & L3). split; [exact A'|]. rewrite L1, L2, L3.
          assert (LO : l_low (more b c) = low_of (len_of c)) by (unfold more; rewrite U; cbn; rewrite C; reflexivity). rewrite LO, zl in L.
          split.
          + rewrite zl. rewrite zl in B. destruct A as (A & _). unfold low_of in L. pose proof (Z.mod_le (8 + len_of c) (2 ^ 32) ltac:(lia) ltac:(lia)). lia.
          + unfold more; rewrite U. rewrite C at 1. unfold mark, repeer. cbn. reflexivity || (rewrite C; reflexivity). }
      rewrite T. reflexivity.
    - rewrite bev_turn, more_up, U. unfold more. rewrite U. reflexivity.
  Qed.
  Lemma feeds_bev : forall bs c h, waiting c -> feeds c h bs = bev (more (concat bs) c) h.
  Proof.
    induction bs as [|b bs IH]; intros c h Wc; cbn [ConnModel.feeds concat].
    - rewrite bev_turn, more_up. destruct (l_up c) eqn:U.
      + assert (X : more [] c = c) by (unfold more; rewrite U, app_nil_r, <- U; destruct c; reflexivity). rewrite X, (Wc U). reflexivity.
      + unfold more. rewrite U. reflexivity.
    - rewrite feed_bev by exact Wc. destruct (l_up c) eqn:U.
      + pose proof (bev_waits _ (more b c) h ltac:(constructor) ltac:(rewrite more_up; exact U)) as W1.
        pose proof (bev_split _ (more b c) h (concat bs) ltac:(constructor) ltac:(rewrite more_up; exact U)) as S1.
        assert (X : more (concat bs) (more b c) = more (b ++ concat bs) c) by (unfold more; rewrite U; cbn; rewrite app_assoc; reflexivity). rewrite X in S1. rewrite S1.
        destruct (bev (more b c) h) as [[c1 h1] o1]. cbn [fst] in W1. rewrite (IH c1 h1 W1). reflexivity.
      + assert (X : forall x, more x c = c) by (intros; unfold more; rewrite U; reflexivity). rewrite !X, (bev_turn c), U. rewrite (IH c h Wc), X, (bev_turn c), U. reflexivity.
  Qed.
  Lemma new_waiting : forall send, waiting (new_link readahead send).
  Proof. intros send _ h. reflexivity. Qed.
End Conn.
