(** Proofs about the ring of search buckets. *)
From Coq Require Import ZArith List Bool Lia ZifyBool ZifyNat.
From Verif Require Import Base BaseProofs WireModel WireSpec WireProofs UdpModel SearchModel.
Import ListNotations.
Local Open Scope Z_scope.

Lemma some_pair : forall (A B : Type) (a x : A) (b y : B), Some (a, b) = Some (x, y) -> a = x /\ b = y.
Proof. intros. inversion H. auto. Qed.
Ltac sp E := cbv beta iota zeta delta [tick_search] in E; apply some_pair in E; destruct E as (<- & <-).
Lemma push_len : forall b i id, length (push_at i id b) = length b.
Proof. induction b as [|l b IH]; intros [|i] id; cbn; auto. Qed.
Lemma clear_len : forall b i, length (clear_at i b) = length b.
Proof. induction b as [|l b IH]; intros [|i]; cbn; auto. Qed.
Lemma push_same : forall b i id, (i < length b)%nat -> nth i (push_at i id b) [] = nth i b [] ++ [id].
Proof. induction b as [|l b IH]; intros [|i] id L; cbn in *; try lia; auto. apply IH. lia. Qed.
Lemma push_other : forall b i j id, i <> j -> nth j (push_at i id b) [] = nth j b [].
Proof. induction b as [|l b IH]; intros [|i] [|j] id L; cbn; auto; try congruence. Qed.
Lemma clear_same : forall b i, nth i (clear_at i b) [] = [].
Proof. induction b as [|l b IH]; intros [|i]; cbn; auto. Qed.
Lemma clear_other : forall b i j, i <> j -> nth j (clear_at i b) [] = nth j b [].
Proof. induction b as [|l b IH]; intros [|i] [|j] L; cbn; auto; try congruence. Qed.
Lemma push_mono : forall b i j id x, In x (nth j b []) -> In x (nth j (push_at i id b) []).
Proof.
  intros b i j id x H. destruct (Nat.eq_dec i j) as [->|N]; [|rewrite push_other; auto].
  destruct (Nat.lt_ge_cases j (length b)); [rewrite push_same by auto; apply in_or_app; auto|]. rewrite nth_overflow in H by lia. destruct H.
Qed.
Lemma next_lt : forall idx ninc b, b <> [] -> (next_bucket idx ninc b < length b)%nat.
Proof.
  intros idx ninc b N. assert (L : length b <> O) by (destruct b; cbn; congruence). unfold next_bucket. destruct (_ && _); apply Nat.mod_upper_bound; auto.
Qed.

(** what a search leaves alone *)
Definition similar (c c' : ctx) : Prop := forall id,
  match chans c id, chans c' id with
  | Some x, Some y => ch_name x = ch_name y /\ ch_searching x = ch_searching y
  | None, None => True
  | _, _ => False
  end.
Lemma similar_refl : forall c, similar c c.
Proof. intros c id. destruct (chans c id); auto. Qed.
Lemma similar_trans : forall a b c, similar a b -> similar b c -> similar a c.
Proof.
  intros a b c H K id. specialize (H id). specialize (K id). destruct (chans a id), (chans b id), (chans c id); try tauto. destruct H, K. split; congruence.
Qed.
Definition live (c : ctx) (id : Z) (name : str) : Prop := exists n, chans c id = Some (Chan name true n).
Lemma similar_live : forall c c' id name, similar c c' -> (live c id name <-> live c' id name).
Proof.
  intros c c' id name H. specialize (H id). unfold live. split; intros (n & E); rewrite E in H.
  - destruct (chans c' id) as [[m s k]|]; [|tauto]. cbn in H. destruct H as (-> & <-). eauto.
  - destruct (chans c id) as [[m s k]|]; [|tauto]. cbn in H. destruct H as (-> & ->). eauto.
Qed.
Definition in_ring (c : ctx) (id : Z) : Prop := exists i, (i < length (buckets c))%nat /\ In id (nth i (buckets c) []).
Definition more_ring (c c' : ctx) : Prop := length (buckets c) = length (buckets c') /\ forall i id, In id (nth i (buckets c) []) -> In id (nth i (buckets c') []).
Lemma more_refl : forall c, more_ring c c.
Proof. split; auto. Qed.
Lemma more_trans : forall a b c, more_ring a b -> more_ring b c -> more_ring a c.
Proof. intros a b c (A & B) (C & D). split; [congruence|auto]. Qed.
Lemma more_in : forall c c' id, more_ring c c' -> in_ring c id -> in_ring c' id.
Proof. intros c c' id (A & B) (i & L & H). exists i. rewrite <- A. auto. Qed.
Definition same_rest (c c' : ctx) : Prop := cur c = cur c' /\ initial c = initial c' /\ sched c = sched c' /\ npoked c = npoked c'.

Lemma err_step : forall host id name w, werr w = true -> werr (to_wire_str host name (to_wire_u host 4 id w)) = true.
Proof.
  intros host id name w E. destruct (werr (to_wire_str host name (to_wire_u host 4 id w))) eqn:X; auto.
  apply (wsafe_good _ _ (wsafe_str _ _ _)) in X. apply (wsafe_good _ _ (wsafe_u _ _ _ _)) in X. congruence.
Qed.
Lemma fill_err : forall host k poked idx bucket w out c, werr w = true -> werr (snd (fst (fst (fill host k poked idx bucket w out c)))) = true.
Proof.
  intros host k poked idx. induction bucket as [|id l IH]; intros w out c E; cbn [fill]; auto. destruct (chans c id) as [x|]; auto. destruct (ch_searching x); auto.
  cbv zeta. rewrite err_step by auto. apply IH. apply err_step; auto.
Qed.
(** the count of searches of a channel, after one more *)
Definition bump (k : kind) (poked : bool) (n s : nat) : nat := match k, poked with Check, false => Nat.min n (s + 1) | _, _ => s end.

Record filled (bucket rest : list Z) (out out' : list (Z * str)) (c c' : ctx) : Prop := {
  F_more : more_ring c c';
  F_sim : similar c c';
  F_same : same_rest c c';
  F_new : exists new, out' = out ++ new /\ (forall id name, In (id, name) new -> In id bucket /\ live c id name);
  F_rest : exists used, bucket = used ++ rest /\ (forall id name, In id used -> live c id name -> In (id, name) out' /\ in_ring c' id);
  F_stop : rest <> [] -> out' <> [] /\ (out = [] -> rest <> bucket)
}.
Lemma fill_spec : forall host k poked idx bucket w out c rest w' out' c', buckets c <> [] -> 
  fill host k poked idx bucket w out c = (rest, w', out', c') -> werr w' = false -> filled bucket rest out out' c c'.
Proof.
  intros host k poked idx. induction bucket as [|id l IH]; intros w out c rest w' out' c' NB E W.
  { cbn [fill] in E. inversion E; subst. constructor; auto using more_refl, similar_refl.
    - repeat split.
    - exists []. rewrite app_nil_r. split; auto. intros ? ? [].
    - exists []. split; auto. intros ? ? [].
    }
  cbn [fill] in E.
  assert (SKIP : forall w0, (forall name, ~ live c id name) -> fill host k poked idx l w0 out c = (rest, w', out', c') -> filled (id :: l) rest out out' c c').
  { intros w0 NL E0. destruct (IH _ _ _ _ _ _ _ NB E0 W) as [A B C (new & D1 & D2) (used & R1 & R2) S]. constructor; auto.
    - exists new. split; auto. intros i n H. destruct (D2 i n H). split; auto. right; auto.
    - exists (id :: used). split; [cbn; congruence|]. intros i n [->|H] L; [elim (NL n L)|auto].
    - intros N. destruct (S N) as (S1 & S2). split; auto. intros O H. rewrite R1 in H. apply (f_equal (@length Z)) in H. cbn in H. rewrite app_length in H. lia. }
  destruct (chans c id) as [x|] eqn:CI.
  2: { apply (SKIP w); auto. intros n (k0 & X). congruence. }
  destruct (ch_searching x) eqn:CS.
  2: { apply (SKIP w); auto. intros n (k0 & X). rewrite CI in X. inversion X; subst. discriminate. }
  cbv zeta in E. set (w1 := to_wire_str host (ch_name x) (to_wire_u host 4 id w)) in *.
  destruct (werr w1) eqn:W1.
  { pose proof (fill_err host k poked idx l w1 out c W1) as X. rewrite E in X. cbn in X. congruence. }
  destruct ((maxSearchPayload <? zlen (wd w1)) && negb (is_nil out)) eqn:P.
  { inversion E; subst. apply andb_true_iff in P. destruct P as (_ & P). assert (NO : out' <> []) by (destruct out'; [discriminate P|discriminate]).
    constructor; auto using more_refl, similar_refl.
    - repeat split.
    - exists []. rewrite app_nil_r. split; auto. intros ? ? [].
    - exists []. split; auto. intros ? ? [].
    }
  set (ns := match k, poked with Check, false => Nat.min (length (buckets c)) (ch_nsearch x + 1) | _, _ => ch_nsearch x end) in *.
  set (ninc := match k, poked with Check, false => ns | _, _ => 0%nat end) in *.
  set (c2 := set_buckets (set_chan c id (Some (Chan (ch_name x) true ns))) (push_at (next_bucket idx ninc (buckets c)) id (buckets c))) in *.
  assert (M2 : more_ring c c2). { split; [symmetry; apply push_len|]. intros. cbn [c2 buckets set_buckets set_chan]. apply push_mono; auto. }
  assert (S2 : similar c c2). { intros i. cbn [c2 chans set_buckets set_chan]. destruct (Z.eqb_spec i id) as [->|N]; [rewrite CI; cbn; auto|]. destruct (chans c i); auto. }
  assert (R2 : in_ring c2 id). { exists (next_bucket idx ninc (buckets c)). cbn [c2 buckets set_buckets set_chan]. rewrite push_len. split; [apply next_lt; auto|]. rewrite push_same by (apply next_lt; auto). apply in_or_app. right. left. auto. }
  assert (NB2 : buckets c2 <> []). { destruct M2 as (L & _). intros Z. rewrite Z in L. destruct (buckets c); [congruence|discriminate]. }
  destruct (IH _ _ _ _ _ _ _ NB2 E W) as [A B C (new & D1 & D2) (used & U1 & U2) S]. constructor.
  - eapply more_trans; eauto.
  - eapply similar_trans; eauto.
  - exact C.
  - exists ((id, ch_name x) :: new). split; [rewrite D1, <- app_assoc; reflexivity|]. intros i n [H|H].
    + inversion H; subst. split; [left; auto|]. exists (ch_nsearch x). rewrite CI. destruct x; cbn in *; subst; auto.
    + destruct (D2 i n H) as (X & Y). split; [right; auto|]. apply (similar_live _ _ _ _ S2); auto.
  - exists (id :: used). split; [cbn; congruence|]. intros i n H L. destruct H as [->|H].
    + destruct L as (m & L). rewrite CI in L. assert (EN : ch_name x = n) by (inversion L; reflexivity). split; [rewrite <- EN, D1; apply in_or_app; left; apply in_or_app; right; left; reflexivity|]. eapply more_in; eauto.
    + apply U2; auto. apply (similar_live _ _ _ _ S2); auto.
  - intros N. split.
    + rewrite D1. destruct out; discriminate.
    + intros _ H. rewrite U1 in H. apply (f_equal (@length Z)) in H. cbn in H. rewrite app_length in H. lia.
Qed.
(** the whole bucket *)
Record sent (bucket : list Z) (ps : list packet) (c c' : ctx) : Prop := {
  S_more : more_ring c c';
  S_sim : similar c c';
  S_same : same_rest c c';
  S_only : forall p id name, In p ps -> In (id, name) (p_entries p) -> In id bucket /\ live c id name;
  S_all : forall id name, In id bucket -> live c id name -> (exists p, In p ps /\ In (id, name) (p_entries p)) /\ in_ring c' id
}.
Lemma same_rest_trans : forall a b c, same_rest a b -> same_rest b c -> same_rest a c.
Proof. intros a b c (A & B & C & D) (E & F & G & H). repeat split; congruence. Qed.
Lemma send_spec : forall f host port k poked idx bucket c ps c', buckets c <> [] -> (length bucket <= f)%nat ->
  send_all f host port k poked idx bucket c = Some (ps, c') -> sent bucket ps c c'.
Proof.
  assert (NONE : forall bucket c, (forall id name, In id bucket -> ~ live c id name) -> sent bucket [] c c).
  { intros bucket c N. constructor; auto using more_refl, similar_refl; [repeat split|intros ? ? ? []|]. intros id name H L. elim (N id name); auto. }
  induction f as [|f IH]; intros host port k poked idx bucket c ps c' NB L E.
  { destruct bucket; [|cbn in L; lia]. cbn in E. inversion E; subst. apply NONE. intros ? ? []. }
  destruct bucket as [|id0 l]; [cbn in E; inversion E; subst; apply NONE; intros ? ? []|].
  cbn [send_all] in E. set (bucket := id0 :: l) in *. clearbody bucket.
  destruct (fill host k poked idx bucket (wpush [0; 0] (start_msg host port false)) [] c) as [[[rest w] out] c1] eqn:EF.
  destruct (werr w) eqn:W; [discriminate|]. destruct (fill_spec _ _ _ _ _ _ _ _ _ _ _ _ NB EF W) as [A B C (new & D1 & D2) (used & U1 & U2) S].
  destruct (is_nil out) eqn:NO.
  - destruct out; [|discriminate]. inversion E; subst ps c'. assert (RN : rest = []) by (destruct rest; auto; destruct S as (S & _); [discriminate|congruence]). subst rest. rewrite app_nil_r in U1. subst used.
    constructor; auto; [intros ? ? ? []|]. intros id name H LV. destruct (U2 id name H LV) as ([] & _).
  - destruct (send_all f host port k poked idx rest c1) as [(ps1, c2)|] eqn:E1; [|discriminate]. apply some_pair in E. destruct E as (<- & <-).
    assert (NB1 : buckets c1 <> []). { destruct A as (A & _). intros Z. rewrite Z in A. destruct (buckets c); [congruence|discriminate]. }
    assert (L1 : (length rest <= f)%nat).
    { destruct rest as [|r0 rest]; [cbn; lia|]. destruct S as (_ & S); [discriminate|]. specialize (S eq_refl). rewrite U1 in L. rewrite app_length in L.
      destruct used; [elim S; symmetry; exact U1|]. cbn in *. lia. }
    destruct (IH _ _ _ _ _ _ _ _ _ NB1 L1 E1) as [A1 B1 C1 D O]. constructor.
    + eapply more_trans; eauto.
    + eapply similar_trans; eauto.
    + eapply same_rest_trans; eauto.
    + intros p id name [<-|H] I0.
      * cbn [finish p_entries] in I0. rewrite D1 in I0. apply D2; auto.
      * destruct (D p id name H I0) as (X & Y). split; [rewrite U1; apply in_or_app; auto|]. apply (similar_live _ _ _ _ B); auto.
    + intros id name H LV. rewrite U1 in H. apply in_app_or in H. destruct H as [H|H].
      * destruct (U2 id name H LV) as (X & Y). split; [exists (finish host (length (wd (start_msg host port false))) out w); split; [left; auto|]; exact X|]. eapply more_in; eauto.
      * apply (similar_live _ _ _ _ B) in LV. destruct (O id name H LV) as ((p & X & X') & Y). split; auto. exists p. split; auto. right. auto.
Qed.

(** ** Contexts *)
Record inv (c : ctx) : Prop := {
  I_len : length (buckets c) = nBuckets;
  I_cur : (cur c < nBuckets)%nat;
  I_sched : initial c <> [] -> sched c = true;
  I_in : forall id name, live c id name -> In id (initial c) \/ in_ring c id
}.
Lemma inv_new : inv new_ctx.
Proof. constructor; cbn; auto; try congruence. unfold nBuckets; lia. intros id name (n & H). discriminate. Qed.
Lemma nonempty : forall c, length (buckets c) = nBuckets -> buckets c <> [].
Proof. intros c L Z. rewrite Z in L. discriminate. Qed.

(** a timer: the channels searched for *)
Lemma check_spec : forall host port poked c ps c', inv c -> tick_search host port Check poked c = Some (ps, c') ->
  inv c' /\ similar c c' /\ cur c' = ((cur c + 1) mod nBuckets)%nat /\ initial c' = initial c /\
  (forall p id name, In p ps -> In (id, name) (p_entries p) -> In id (nth (cur c) (buckets c) []) /\ live c id name) /\
  (forall id name, In id (nth (cur c) (buckets c) []) -> live c id name -> (exists p, In p ps /\ In (id, name) (p_entries p)) /\ in_ring c' id) /\
  (forall i id, i <> cur c -> In id (nth i (buckets c) []) -> In id (nth i (buckets c') [])).
Proof.
  intros host port poked c ps c' [L U S N] E. unfold tick_search in E. rewrite L in E.
  set (c1 := Ctx ((cur c + 1) mod nBuckets) (initial c) (clear_at (cur c) (buckets c)) (chans c) (sched c) (npoked c)) in *.
  assert (L1 : length (buckets c1) = nBuckets) by (cbn; rewrite clear_len; auto).
  destruct (send_spec _ _ _ _ _ _ _ _ _ _ (nonempty c1 L1) (le_n _) E) as [(A & A') B C D O].
  assert (LV : forall id name, live c id name <-> live c1 id name) by (intros; reflexivity).
  assert (SIM : similar c c') by (intros i; exact (B i)).
  split.
  { destruct C as (C1 & C2 & C3 & C4). constructor.
    - congruence.
    - rewrite <- C1. cbn [c1 cur]. apply Nat.mod_upper_bound. discriminate.
    - rewrite <- C2, <- C3. exact S.
    - intros id name H. assert (H1 : live c1 id name) by (apply (similar_live _ _ _ _ B); auto). rewrite <- C2. destruct (N id name H1) as [X|(i & LI & X)]; auto. right.
      destruct (Nat.eq_dec i (cur c)) as [->|NE]; [apply (O id name X H1)|]. exists i. rewrite <- A. cbn [c1 buckets]. rewrite clear_len. split; auto. apply A'. cbn [c1 buckets]. rewrite clear_other by auto. auto. }
  split; auto. destruct C as (C1 & C2 & _). split; [auto|]. split; auto. split; [exact D|]. split; [exact O|].
  intros i id NE H. apply A'. cbn [c1 buckets]. rewrite clear_other by auto. auto.
Qed.
Lemma initial_spec : forall host port c ps c', inv c -> tick_search host port Initial false c = Some (ps, c') ->
  inv c' /\ similar c c' /\ cur c' = cur c /\ initial c' = [] /\
  (forall p id name, In p ps -> In (id, name) (p_entries p) -> In id (initial c) /\ live c id name) /\
  (forall id name, In id (initial c) -> live c id name -> (exists p, In p ps /\ In (id, name) (p_entries p)) /\ in_ring c' id) /\
  (forall i id, In id (nth i (buckets c) []) -> In id (nth i (buckets c') [])).
Proof.
  intros host port c ps c' [L U S N] E. unfold tick_search in E.
  set (c1 := Ctx (cur c) [] (buckets c) (chans c) (sched c) (npoked c)) in *.
  destruct (send_spec _ _ _ _ _ _ _ _ _ _ (nonempty c1 L) (le_n _) E) as [(A & A') B C D O].
  assert (SIM : similar c c') by (intros i; exact (B i)). destruct C as (C1 & C2 & C3 & C4).
  split.
  { constructor.
    - rewrite <- A. exact L.
    - rewrite <- C1. exact U.
    - rewrite <- C2. cbn. congruence.
    - intros id name H. assert (H1 : live c1 id name) by (apply (similar_live _ _ _ _ B); auto). right. destruct (N id name H1) as [X|(i & LI & X)]; [apply (O id name X H1)|].
      exists i. rewrite <- A. split; auto. }
  split; [exact SIM|]. split; [auto|]. split; [auto|]. split; [exact D|]. split; [exact O|exact A'].
Qed.

(** events and one channel *)
Definition ends (id : Z) (e : event) : Prop := e = Found id \/ e = Gone id.
Lemma step_inv : forall host port c e ps c', inv c -> step host port c e = Some (ps, c') -> inv c'.
Proof.
  intros host port c e ps c' V E. pose proof V as [L U S N]. destruct e as [id name| | | | |id|id con|id]; cbn [step] in E.
  - destruct (chans c id) eqn:CI; sp E; auto. constructor; cbn; auto. intros i n (m & H). cbn in H. destruct (Z.eqb_spec i id) as [->|NE].
    + left. apply in_or_app. right. left. auto.
    + destruct (N i n) as [X|X]; [exists m; auto|left; apply in_or_app; auto|auto].
  - destruct (sched c) eqn:SC; [|sp E; auto].
    set (c0 := Ctx (cur c) (initial c) (buckets c) (chans c) false (npoked c)) in *.
    assert (V1 : inv (Ctx (cur c) (initial c) (buckets c) (chans c) true (npoked c))) by (constructor; auto).
    (* tick_search() neither reads nor writes the flag, and empties the initial bucket *)
    unfold tick_search in E. set (c1 := Ctx (cur c0) [] (buckets c0) (chans c0) (sched c0) (npoked c0)) in *.
    destruct (send_spec _ _ _ _ _ _ _ _ _ _ (nonempty c1 L) (le_n _) E) as [(A & A') B (C1 & C2 & C3 & C4) D O].
    constructor.
    + rewrite <- A. exact L.
    + rewrite <- C1. exact U.
    + rewrite <- C2. cbn. congruence.
    + intros id name H. assert (H1 : live c1 id name) by (apply (similar_live _ _ _ _ B); auto). right. destruct (N id name H1) as [X|(i & LI & X)]; [apply (O id name X H1)|].
      exists i. rewrite <- A. split; auto.
  - set (c0 := Ctx (cur c) (initial c) (buckets c) (chans c) (sched c) (pred (npoked c))) in *. assert (V0 : inv c0) by (constructor; auto).
    exact (proj1 (check_spec _ _ _ _ _ _ V0 E)).
  - sp E; auto.
  - sp E. constructor; auto.
  - destruct (chans c id) as [x|] eqn:CI; sp E; auto. constructor; auto. intros i n (m & H). cbn in H. destruct (Z.eqb_spec i id) as [->|NE]; [discriminate|].
    destruct (N i n) as [X|X]; [exists m; auto|left; auto|right; exact X].
  - destruct (chans c id) as [x|] eqn:CI; sp E; auto. set (j := (_ mod nBuckets)%nat).
    assert (LJ : (j < length (buckets c))%nat) by (rewrite L; apply Nat.mod_upper_bound; discriminate).
    constructor; cbn [buckets set_buckets set_chan cur initial sched]; auto.
    + rewrite push_len. auto.
    + intros i n (m & H). cbn in H. destruct (Z.eqb_spec i id) as [->|NE].
      * right. exists j. cbn [buckets set_buckets set_chan]. rewrite push_len. split; auto. rewrite push_same by auto. apply in_or_app. right. left. auto.
      * destruct (N i n) as [X|(b & LB & X)]; [exists m; auto|auto|]. right. exists b. cbn [buckets set_buckets set_chan]. rewrite push_len. split; auto. apply push_mono; auto.
  - sp E. constructor; auto. intros i n (m & H). cbn in H. destruct (Z.eqb_spec i id) as [->|NE]; [discriminate|].
    destruct (N i n) as [X|X]; [exists m; auto|left; auto|right; exact X].
Qed.
Lemma run_inv : forall host port es c pss c', inv c -> run host port c es = Some (pss, c') -> inv c'.
Proof.
  intros host port. induction es as [|e es IH]; intros c pss c' V E; cbn [run] in E; [sp E; auto|].
  destruct (step host port c e) as [(ps, c1)|] eqn:E1; [|discriminate]. destruct (run host port c1 es) as [(pss1, c2)|] eqn:E2; [|discriminate]. apply some_pair in E. destruct E as (<- & <-).
  eapply IH; [|eauto]. eapply step_inv; eauto.
Qed.
Lemma step_live : forall host port c e ps c' id name, inv c -> step host port c e = Some (ps, c') -> live c id name -> ~ ends id e -> live c' id name.
Proof.
  intros host port c e ps c' id name V E LV NE. destruct e as [i n| | | | |i|i con|i]; cbn [step] in E.
  - destruct (chans c i) eqn:CI; sp E; auto. destruct LV as (m & H). exists m. cbn. destruct (Z.eqb_spec id i); auto. congruence.
  - destruct (sched c) eqn:SC; [|sp E; auto]. unfold tick_search in E.
    match type of E with send_all _ _ _ _ _ _ _ ?x = _ => destruct (send_spec _ _ _ _ _ _ _ _ _ _ (nonempty x (I_len c V)) (le_n _) E) as [_ B _ _ _] end.
    apply (similar_live _ _ _ _ B). auto.
  - set (c0 := Ctx (cur c) (initial c) (buckets c) (chans c) (sched c) (pred (npoked c))) in *. assert (V0 : inv c0) by (destruct V; constructor; auto).
    apply (similar_live c0 c'); [apply (check_spec _ _ _ _ _ _ V0 E)|auto].
  - sp E; auto.
  - sp E; auto.
  - destruct (chans c i) eqn:CI; sp E; auto. destruct LV as (m & H). exists m. cbn. destruct (Z.eqb_spec id i); auto. subst. elim NE. left; auto.
  - destruct (chans c i) as [x|] eqn:CI; sp E; auto. destruct LV as (m & H). cbn. unfold live. cbn. destruct (Z.eqb_spec id i); [|eauto]. subst. rewrite CI in H. inversion H; subst. cbn. eauto.
  - sp E; auto. destruct LV as (m & H). exists m. cbn. destruct (Z.eqb_spec id i); auto. subst. elim NE. right; auto.
Qed.

(** ** Distance to the next search *)
Definition ticks (es : list event) : nat := length (filter (fun e => match e with SearchTimer => true | _ => false end) es).
Definition searched (id : Z) (name : str) (ps : list packet) : Prop := exists p, In p ps /\ In (id, name) (p_entries p).
(** in a bucket which is [d] ticks ahead *)
Definition ahead (c : ctx) (id : Z) (d : nat) : Prop := (d < nBuckets)%nat /\ In id (nth ((cur c + d) mod nBuckets) (buckets c) []).
Lemma ring_ahead : forall c id, inv c -> in_ring c id -> exists d, ahead c id d.
Proof.
  intros c id V (i & L & H). rewrite (I_len c V) in L. pose proof (I_cur c V) as U. exists ((i + (nBuckets - cur c)) mod nBuckets)%nat. unfold ahead. split; [apply Nat.mod_upper_bound; discriminate|].
  rewrite Nat.add_mod_idemp_r by discriminate. replace (cur c + (i + (nBuckets - cur c)))%nat with (i + 1 * nBuckets)%nat by lia. rewrite Nat.mod_add by discriminate. rewrite Nat.mod_small by auto. auto.
Qed.
Lemma mod_neq : forall a d, (0 < d < nBuckets)%nat -> (a < nBuckets)%nat -> ((a + d) mod nBuckets <> a)%nat.
Proof.
  intros a d D A. destruct (Nat.lt_ge_cases (a + d) nBuckets).
  - rewrite Nat.mod_small by auto. lia.
  - replace (a + d)%nat with ((a + d - nBuckets) + 1 * nBuckets)%nat by lia. rewrite Nat.mod_add by discriminate. rewrite Nat.mod_small by lia. lia.
Qed.
Lemma step_ahead : forall host port c e ps c' id name d, inv c -> step host port c e = Some (ps, c') -> live c id name -> ~ ends id e -> ahead c id d ->
  match e with
  | SearchTimer => match d with O => searched id name ps | S d' => ahead c' id d' end
  | _ => ahead c' id d
  end.
Proof.
  intros host port c e ps c' id name d V E LV NE (LD & AH). pose proof V as [L U S N].
  assert (SAME : forall b, (forall i x, In x (nth i (buckets c) []) -> In x (nth i b [])) -> In id (nth ((cur c + d) mod nBuckets) b [])) by (intros; auto).
  destruct e as [i n| | | | |i|i con|i]; cbn [step] in E.
  - destruct (chans c i) eqn:CI; sp E; split; auto.
  - destruct (sched c) eqn:SC; [|sp E; split; auto].
    unfold tick_search in E.
    match type of E with send_all _ _ _ _ _ _ _ ?x = _ => destruct (send_spec _ _ _ _ _ _ _ _ _ _ (nonempty x L) (le_n _) E) as [(_ & A) _ (C & _) _ _] end.
    split; auto. rewrite <- C. apply A. exact AH.
  - set (c0 := Ctx (cur c) (initial c) (buckets c) (chans c) (sched c) (pred (npoked c))) in *. assert (V0 : inv c0) by (constructor; auto).
    destruct (check_spec _ _ _ _ _ _ V0 E) as (_ & _ & CU & _ & _ & A & O). destruct d as [|d].
    + rewrite Nat.add_0_r, Nat.mod_small in AH by auto. apply A; auto.
    + split; [lia|]. rewrite CU. rewrite Nat.add_mod_idemp_l by discriminate. replace (cur c0 + 1 + d)%nat with (cur c + Datatypes.S d)%nat by (cbn; lia).
      apply O; auto. apply mod_neq; auto. lia.
  - sp E; split; auto.
  - sp E; split; auto.
  - destruct (chans c i) eqn:CI; sp E; split; auto.
  - destruct (chans c i) as [x|] eqn:CI; sp E; split; auto. cbn [buckets set_buckets set_chan cur]. apply push_mono; auto.
  - sp E; split; auto.
Qed.
Lemma run_ahead : forall host port es c pss c' id name d, inv c -> run host port c es = Some (pss, c') -> live c id name -> Forall (fun e => ~ ends id e) es -> ahead c id d ->
  (d < ticks es)%nat -> searched id name (concat pss).
Proof.
  intros host port. induction es as [|e es IH]; intros c pss c' id name d V E LV F AH T; [cbn in T; lia|].
  cbn [run] in E. destruct (step host port c e) as [(ps, c1)|] eqn:E1; [|discriminate]. destruct (run host port c1 es) as [(pss1, c2)|] eqn:E2; [|discriminate]. apply some_pair in E. destruct E as (<- & <-).
  inversion F; subst. pose proof (step_ahead _ _ _ _ _ _ _ _ _ V E1 LV H1 AH) as SA. pose proof (step_inv _ _ _ _ _ _ V E1) as V1. pose proof (step_live _ _ _ _ _ _ _ _ V E1 LV H1) as LV1.
  cbn [concat]. unfold ticks in T. cbn [filter] in T.
  assert (K : forall d', ahead c1 id d' -> (d' < ticks es)%nat -> searched id name (ps ++ concat pss1)).
  { intros d' A' T'. destruct (IH _ _ _ _ _ _ V1 E2 LV1 H2 A' T') as (p & P & Q). exists p. split; auto. apply in_or_app; auto. }
  destruct e; try (apply (K d); auto; fail). destruct d as [|d].
  - destruct SA as (p & P & Q). exists p. split; auto. apply in_or_app; auto.
  - apply (K d); auto. cbn [length] in T. unfold ticks. lia.
Qed.
Lemma run_initial : forall host port es c pss c' id name, inv c -> run host port c es = Some (pss, c') -> live c id name -> Forall (fun e => ~ ends id e) es -> In id (initial c) ->
  In InitialTimer es -> searched id name (concat pss).
Proof.
  intros host port. induction es as [|e es IH]; intros c pss c' id name V E LV F II T; [destruct T|].
  cbn [run] in E. destruct (step host port c e) as [(ps, c1)|] eqn:E1; [|discriminate]. destruct (run host port c1 es) as [(pss1, c2)|] eqn:E2; [|discriminate]. apply some_pair in E. destruct E as (<- & <-).
  inversion F; subst. pose proof (step_inv _ _ _ _ _ _ V E1) as V1. pose proof (step_live _ _ _ _ _ _ _ _ V E1 LV H1) as LV1. cbn [concat].
  assert (K : In id (initial c1) -> In InitialTimer es -> searched id name (ps ++ concat pss1)).
  { intros A' T'. destruct (IH _ _ _ _ _ V1 E2 LV1 H2 A' T') as (p & P & Q). exists p. split; auto. apply in_or_app; auto. }
  assert (KK : e <> InitialTimer -> In id (initial c1) -> searched id name (ps ++ concat pss1)) by (intros N A; apply K; auto; destruct T; [congruence|auto]).
  clear K. pose proof V as [L U S N]. destruct e as [i n| | | | |i|i con|i]; cbn [step] in E1; try (apply KK; [discriminate|]).
  - destruct (chans c i) eqn:CI; sp E1; auto. cbn. apply in_or_app; auto.
  - assert (SC : sched c = true) by (apply S; intros Z; rewrite Z in II; destruct II). rewrite SC in E1. unfold tick_search in E1.
    match type of E1 with send_all _ _ _ _ _ _ _ ?x = _ => destruct (send_spec _ _ _ _ _ _ _ _ _ _ (nonempty x L) (le_n _) E1) as [_ _ _ _ O] end.
    destruct (O id name II LV) as ((p & P & Q) & _). exists p. split; auto. apply in_or_app; auto.
  - set (c0 := Ctx (cur c) (initial c) (buckets c) (chans c) (sched c) (pred (npoked c))) in *. assert (V0 : inv c0) by (constructor; auto).
    destruct (check_spec _ _ _ _ _ _ V0 E1) as (_ & _ & _ & CI & _). rewrite CI. auto.
  - sp E1; auto.
  - sp E1; auto.
  - destruct (chans c i) eqn:CI; sp E1; auto.
  - destruct (chans c i) as [x|] eqn:CI; sp E1; auto.
  - sp E1; auto.
Qed.
