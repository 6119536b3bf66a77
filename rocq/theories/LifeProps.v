(** C116: starting and stopping a server. *)
From Coq Require Import List Bool Arith Lia.
From Verif Require Import LifeModel LifeSpec LifeProofs.
Import ListNotations.

(** A stopped server is silent, and has no connections; a running one answers searches at all of its interfaces, accepts connections, and sends
    beacons.  Whatever threads start and stop it, and in whatever order they proceed. *)
Theorem C116_states : forall L ps es s, run (init L ps) es = Some s ->
  (ph s = Stopped -> silent s /\ conns s = []) /\
  (ph s = Running -> timer s = true /\ tcp s = true /\ forall i, i < L -> nth i (udp s) false = true).
Proof.
  intros L ps es s R. pose proof (inv_run L es _ _ (inv_init L ps) R) as I. unfold inv in I. split; intro P; rewrite P in I.
  - destruct I as (_ & T & U & B & C). split; [|exact C]. intros e s' NT S. destruct e as [t| |i|c|c|]; cbn [step] in S; [now destruct (NT t)| | | | |].
    + rewrite B in S. discriminate.
    + rewrite U in S. assert (Z : nth i (repeat false L) false = false) by (destruct (nth_in_or_default i (repeat false L) false) as [Q|Q]; [now apply repeat_spec in Q|exact Q]). rewrite Z in S. injection S as <-. auto.
    + rewrite T in S. injection S as <-. auto.
    + injection S as <-. cbn. rewrite C, app_nil_r. auto.
    + destruct (sig s) as [[|]|]; injection S as <-; auto.
  - destruct I as (_ & T & U & B). split; [exact B|]. split; [exact T|]. intros i H. rewrite U. destruct (nth_in_or_default i (repeat true L) false) as [Q|Q]; [now apply repeat_spec in Q|]. exfalso.
    rewrite nth_indep with (d' := true) in Q by (now rewrite repeat_length). destruct (nth_in_or_default i (repeat true L) true) as [Q'|Q']; [apply repeat_spec in Q'|]; congruence.
Qed.

(** One thread starts, stops and runs the server; others interrupt. *)
Section One.
  Variable L : nat.
  Variable p : list call.
  Notation flat := (flat_map (parts L)).
  Definition tells (bs : list (list part)) : Prop := Forall (eq [Tell]) bs.
  Definition own (bs : list (list part)) (f : phase) (g : option bool) : Prop := exists d r, p = d ++ r /\
    ((bs = flat r /\ f = after d /\ g = None) \/
     (exists r' k b, r = Start :: r' /\ mid_start L k b /\ bs = b :: flat r' /\ f = Starting /\ g = None) \/
     (exists r' k b, r = Stop :: r' /\ mid_stop L k b /\ bs = b :: flat r' /\ f = Stopping /\ g = None) \/
     (exists r' k b, r = Run :: r' /\ mid_start L k b /\ bs = b :: [Arm; Await; Disarm] :: stop_parts L :: flat r' /\ f = Starting /\ g = None) \/
     (exists r', r = Run :: r' /\ bs = [Arm; Await; Disarm] :: stop_parts L :: flat r' /\ f = Running /\ g = None) \/
     (exists r', r = Run :: r' /\ bs = [Await; Disarm] :: stop_parts L :: flat r' /\ f = Running) \/
     (exists r', r = Run :: r' /\ bs = [Disarm] :: stop_parts L :: flat r' /\ f = Running) \/
     (exists r', r = Run :: r' /\ bs = stop_parts L :: flat r' /\ f = Running /\ g = None) \/
     (exists r' k b, r = Run :: r' /\ mid_stop L k b /\ bs = b :: flat r' /\ f = Stopping /\ g = None)).
  Definition one (s : st) : Prop := (exists bs, nth_error (threads s) 0 = Some bs /\ own bs (ph s) (sig s)) /\ forall u x, u <> 0 -> nth_error (threads s) u = Some x -> tells x.
  Lemma after_snoc d c : after (d ++ [c]) = after1 (after d) c.
  Proof. unfold after. now rewrite fold_left_app. Qed.
  Lemma after_two d : after d = Stopped \/ after d = Running.
  Proof. induction d as [|c d IH] using rev_ind; [now left|]. rewrite after_snoc. destruct c; cbn; auto. Qed.
  Lemma own_next d c r f g : p = d ++ c :: r -> f = after1 (after d) c -> g = None -> own (flat r) f g.
  Proof. intros P F G. exists (d ++ [c]), r. split; [now rewrite <- app_assoc|]. left. split; [reflexivity|]. split; [now rewrite after_snoc|exact G]. Qed.
  Lemma own_signal bs f g g' : (g = None -> g' = None) -> own bs f g -> own bs f g'.
  Proof.
    intros H (d & r & P & [(B & F & G)|[(r' & k & b & -> & M & B & F & G)|[(r' & k & b & -> & M & B & F & G)|[(r' & k & b & -> & M & B & F & G)|[(r' & -> & B & F & G)|[(r' & -> & B & F)|[(r' & -> & B & F)|[(r' & -> & B & F & G)|(r' & k & b & -> & M & B & F & G)]]]]]]]]); exists d; eexists; (split; [exact P|]).
    - left. auto.
    - right. left. exists r', k, b. auto 6.
    - do 2 right. left. exists r', k, b. auto 6.
    - do 3 right. left. exists r', k, b. auto 6.
    - do 4 right. left. exists r'. auto 6.
    - do 5 right. left. exists r'. auto 6.
    - do 6 right. left. exists r'. auto 6.
    - do 7 right. left. exists r'. auto 6.
    - do 8 right. exists r', k, b. auto 6.
  Qed.
  Lemma one_step s e s' : one s -> step s e = Some s' -> one s'.
  Proof.
    intros ((bs & N & O) & T) S. destruct e as [t| |i|c|c|]; cbn [step] in S.
    2: { destruct (timer s); [|discriminate]. injection S as <-. split; [exists bs; auto|auto]. }
    2: { destruct (nth i (udp s) false); injection S as <-; (split; [exists bs; auto|auto]). }
    2: { destruct (tcp s); injection S as <-; (split; [exists bs; auto|auto]). }
    2: { injection S as <-. split; [exists bs; auto|auto]. }
    2: { destruct (sig s) as [[|]|] eqn:G; injection S as <-; (split; [exists bs|auto]); (split; [exact N|]); try (rewrite G; exact O). eapply own_signal; [|exact O]. discriminate. }
    destruct (nth_error (threads s) t) as [[|[|a r0] bs0]|] eqn:NT; try discriminate.
    destruct (do_part s a r0) as [[s1 r1]|] eqn:D; [|discriminate]. injection S as <-.
    assert (TH : threads s1 = threads s).
    { destruct a; cbn [do_part] in D; repeat match type of D with context[match ?x with _ => _ end] => destruct x; try discriminate D end; injection D as <- <-; reflexivity. }
    destruct (Nat.eq_dec t 0) as [->|NE].
    2: { assert (Q := T t _ NE NT). inversion Q as [|? ? Q1 Q2]; subst. injection Q1 as <- <-. cbn [do_part] in D. injection D as <- <-. split; cbn [rest with_thread threads ph next_blocks sig].
         - exists bs. rewrite upd_other by auto. auto.
         - intros u x U X. rewrite nth_upd in X. destruct ((u =? t) && (t <? length (threads s))); [injection X as <-; exact Q2|eapply T; eauto]. }
    rewrite N in NT. injection NT as ->.
    split; [|intros u x U X; cbn [with_thread threads] in X; rewrite TH, upd_other in X by auto; eapply T; eauto].
    exists (next_blocks r1 (rest s a bs0)). cbn [with_thread threads ph sig]. rewrite TH. split; [eapply upd_same, N|].
    destruct O as (d & r & P & [(B & F & G)|[(r' & k & b & -> & M & B & F & G)|[(r' & k & b & -> & M & B & F & G)|[(r' & k & b & -> & M & B & F & G)|[(r' & -> & B & F & G)|[(r' & -> & B & F)|[(r' & -> & B & F)|[(r' & -> & B & F & G)|(r' & k & b & -> & M & B & F & G)]]]]]]]]).
    - destruct r as [|c r]; [discriminate B|]. destruct c; cbn [flat_map parts app] in B; injection B as -> -> ->; cbn [do_part] in D.
      + destruct (after_two d) as [Q|Q]; rewrite F, Q in D; injection D as <- <-; cbn [ph sig rest next_blocks].
        * rewrite (next_mid_start L 0) by apply start_mid. exists d, (Start :: r). split; [exact P|]. right. left. exists r, 0, (map Listen (seq 0 L) ++ [Go]). split; [reflexivity|]. split; [apply start_mid|]. auto.
        * eapply own_next; [exact P| |exact G]. rewrite F, Q. reflexivity.
      + destruct (after_two d) as [Q|Q]; rewrite F, Q in D; injection D as <- <-; cbn [ph sig rest next_blocks].
        * eapply own_next; [exact P| |exact G]. rewrite F, Q. reflexivity.
        * rewrite (next_mid_stop L 0) by apply stop_mid. exists d, (Stop :: r). split; [exact P|]. right. right. left. exists r, 0, (map Ignore (seq 0 L) ++ [Halt]). split; [reflexivity|]. split; [apply stop_mid|]. auto.
      + destruct (after_two d) as [Q|Q]; rewrite F, Q in D; injection D as <- <-; cbn [ph sig rest next_blocks].
        * rewrite (next_mid_start L 0) by apply start_mid. exists d, (Run :: r). split; [exact P|]. right. right. right. left. exists r, 0, (map Listen (seq 0 L) ++ [Go]). split; [reflexivity|]. split; [apply start_mid|]. auto.
        * exists d, (Run :: r). split; [exact P|]. do 4 right. left. exists r. rewrite F, Q. auto.
      + injection D as <- <-. cbn [ph sig rest next_blocks]. eapply own_next; [exact P|exact F|exact G].
    - injection B as <- ->. destruct (mid_start_cases _ _ _ _ M) as [(KL & -> & M')|(-> & -> & ->)]; cbn [do_part] in D; injection D as <- <-; cbn [ph sig rest next_blocks].
      + rewrite (next_mid_start L (S k)) by exact M'. exists d, (Start :: r'). split; [exact P|]. right. left. exists r', (S k), r0. auto 6.
      + eapply own_next; [exact P|reflexivity|exact G].
    - injection B as <- ->. destruct (mid_stop_cases _ _ _ _ M) as [(KL & -> & M')|(-> & -> & ->)]; cbn [do_part] in D; injection D as <- <-; cbn [ph sig rest next_blocks].
      + rewrite (next_mid_stop L (S k)) by exact M'. exists d, (Stop :: r'). split; [exact P|]. right. right. left. exists r', (S k), r0. auto 6.
      + eapply own_next; [exact P|reflexivity|exact G].
    - injection B as <- ->. destruct (mid_start_cases _ _ _ _ M) as [(KL & -> & M')|(-> & -> & ->)]; cbn [do_part] in D; injection D as <- <-; cbn [ph sig rest next_blocks].
      + rewrite (next_mid_start L (S k)) by exact M'. exists d, (Run :: r'). split; [exact P|]. right. right. right. left. exists r', (S k), r0. auto 6.
      + exists d, (Run :: r'). split; [exact P|]. do 4 right. left. exists r'. auto 6.
    - injection B as -> -> ->. cbn [do_part] in D. rewrite G in D. injection D as <- <-. cbn [ph rest next_blocks]. rewrite G. exists d, (Run :: r'). split; [exact P|]. do 5 right. left. exists r'. auto.
    - injection B as -> -> ->. cbn [do_part] in D. destruct (done s); [|discriminate]. injection D as <- <-. cbn [ph rest next_blocks]. exists d, (Run :: r'). split; [exact P|]. do 6 right. left. exists r'. auto.
    - injection B as -> -> ->. cbn [do_part] in D. destruct (sig s) as [[|]|]; injection D as <- <-; cbn [ph sig rest next_blocks]; exists d, (Run :: r'); (split; [exact P|]); do 7 right; left; exists r'; auto.
    - injection B as -> -> ->. cbn [do_part] in D. rewrite F in D. injection D as <- <-. cbn [ph sig rest]. rewrite (next_mid_stop L 0) by apply stop_mid. exists d, (Run :: r'). split; [exact P|]. do 8 right. exists r', 0, (map Ignore (seq 0 L) ++ [Halt]). split; [reflexivity|]. split; [apply stop_mid|]. auto.
    - injection B as <- ->. destruct (mid_stop_cases _ _ _ _ M) as [(KL & -> & M')|(-> & -> & ->)]; cbn [do_part] in D; injection D as <- <-; cbn [ph sig rest next_blocks].
      + rewrite (next_mid_stop L (S k)) by exact M'. exists d, (Run :: r'). split; [exact P|]. do 8 right. exists r', (S k), r0. auto 6.
      + eapply own_next; [exact P|reflexivity|exact G].
  Qed.
  Lemma one_run es : forall s s', one s -> run s es = Some s' -> one s'.
  Proof. induction es as [|e es IH]; intros s s' I R; cbn [run] in R; [now injection R as <-|]. destruct (step s e) as [s1|] eqn:E; [|discriminate]. eapply IH; [|exact R]. eapply one_step; eauto. Qed.
  Lemma one_init others : (forall o, In o others -> Forall (eq Interrupt) o) -> one (init L (p :: others)).
  Proof.
    intro H. split.
    - exists (flat p). split; [reflexivity|]. exists [], p. split; [reflexivity|]. left. auto.
    - intros u x U X. cbn [init threads] in X. destruct u as [|u]; [easy|]. cbn in X. rewrite nth_error_map in X. destruct (nth_error others u) as [o|] eqn:E; [|discriminate]. injection X as <-.
      specialize (H o (nth_error_In _ _ E)). unfold tells. clear - H. induction H as [|c o <- H IH]; cbn; constructor; auto.
  Qed.
  Lemma flat_len_pos c : 1 <= length (parts L c).
  Proof. destruct c; cbn; lia. Qed.
  Lemma flat_mono a b : length (flat b) <= length (flat (a ++ b)) /\ (a <> [] -> length (flat b) < length (flat (a ++ b))).
  Proof. rewrite flat_map_app, app_length. destruct a as [|c a]; [cbn; split; [lia|easy]|]. cbn [flat_map]. rewrite app_length. pose proof (flat_len_pos c). split; [lia|intros _; lia]. Qed.
  Lemma suffixes (d r d0 r0 : list call) : d ++ r = d0 ++ r0 -> (exists a, r = a ++ r0 /\ d0 = d ++ a) \/ (exists a, r0 = a ++ r /\ d = d0 ++ a).
  Proof.
    revert d0. induction d as [|x d IH]; intros [|y d0] H; cbn in H.
    - left. exists []. auto.
    - left. exists (y :: d0). auto.
    - right. exists (x :: d). auto.
    - injection H as -> H. destruct (IH _ H) as [(a & A & B)|(a & A & B)]; [left|right]; exists a; split; auto; now rewrite B.
  Qed.
  Lemma same_len d r d0 r0 : d ++ r = d0 ++ r0 -> length (flat r) = length (flat r0) -> d = d0 /\ r = r0.
  Proof.
    intros E N. destruct (suffixes _ _ _ _ E) as [(a & -> & ->)|(a & -> & ->)]; destruct a as [|c a]; rewrite ?app_nil_r; auto; exfalso.
    - pose proof (proj2 (flat_mono (c :: a) r0) ltac:(discriminate)). lia.
    - pose proof (proj2 (flat_mono (c :: a) r) ltac:(discriminate)). lia.
  Qed.
  (** lengths between those of two suffixes *)
  Lemma between d c r d0 r0 : d ++ c :: r = d0 ++ r0 -> length (flat r) < length (flat r0) < length (flat (c :: r)) -> False.
  Proof.
    intros E N. destruct (suffixes _ _ _ _ E) as [(a & A & ->)|(a & -> & ->)].
    - destruct a as [|x a]; [cbn [app] in A; subst r0; lia|]. cbn [app] in A. injection A as <- ->. pose proof (proj1 (flat_mono a r0)). lia.
    - pose proof (proj1 (flat_mono a (c :: r))). lia.
  Qed.
  Lemma own_at d r f g : p = d ++ r -> own (flat r) f g -> f = after d.
  Proof.
    intros P (d1 & r1 & P1 & H).
    assert (HD : forall b r' k, (mid_start L k b \/ mid_stop L k b) -> forall c, flat (c :: r') <> b :: flat r').
    { intros b r' k M c E. destruct c; cbn [flat_map parts app] in E; injection E as E; subst b.
      - destruct M as [M|M]; [destruct (mid_start_cases _ _ _ _ M) as [(_ & Q & _)|(_ & Q & _)]|destruct (mid_stop_cases _ _ _ _ M) as [(_ & Q & _)|(_ & Q & _)]]; discriminate.
      - destruct M as [M|M]; [destruct (mid_start_cases _ _ _ _ M) as [(_ & Q & _)|(_ & Q & _)]|destruct (mid_stop_cases _ _ _ _ M) as [(_ & Q & _)|(_ & Q & _)]]; discriminate.
      - apply (f_equal (@length _)) in H0. cbn in H0. lia.
      - destruct M as [M|M]; [destruct (mid_start_cases _ _ _ _ M) as [(_ & Q & _)|(_ & Q & _)]|destruct (mid_stop_cases _ _ _ _ M) as [(_ & Q & _)|(_ & Q & _)]]; discriminate. }
    destruct H as [(B & F & G)|[(r' & k & b & -> & M & B & F & G)|[(r' & k & b & -> & M & B & F & G)|[(r' & k & b & -> & M & B & F & G)|[(r' & -> & B & F & G)|[(r' & -> & B & F)|[(r' & -> & B & F)|[(r' & -> & B & F & G)|(r' & k & b & -> & M & B & F & G)]]]]]]]].
    - destruct (same_len d r d1 r1) as (-> & ->); [congruence|now rewrite B|exact F].
    - exfalso. destruct (same_len d r d1 (Start :: r')) as (_ & ->); [congruence|rewrite B; reflexivity|]. eapply (HD b r' k); eauto.
    - exfalso. destruct (same_len d r d1 (Stop :: r')) as (_ & ->); [congruence|rewrite B; reflexivity|]. eapply (HD b r' k); eauto.
    - exfalso. destruct (same_len d r d1 (Run :: r')) as (_ & ->); [congruence|rewrite B; reflexivity|]. cbn [flat_map parts app] in B. injection B as B. subst b. destruct (mid_start_cases _ _ _ _ M) as [(_ & Q & _)|(_ & Q & _)]; discriminate.
    - exfalso. apply (between d1 Run r' d r); [congruence|rewrite B; cbn; lia].
    - exfalso. apply (between d1 Run r' d r); [congruence|rewrite B; cbn; lia].
    - exfalso. apply (between d1 Run r' d r); [congruence|rewrite B; cbn; lia].
    - exfalso. apply (between d1 Run r' d r); [congruence|rewrite B; cbn; lia].
    - exfalso. apply (between d1 Run r' d r); [congruence|rewrite B; cbn; lia].
  Qed.
End One.
(** Calls of one thread, with any number of others which interrupt, and any clients, searches and timers: when start() has returned the server is running, when stop() or run() has returned it is stopped. *)
Theorem C116_calls_partial : forall L d r others es s, (forall o, In o others -> Forall (eq Interrupt) o) ->
  run (init L ((d ++ r) :: others)) es = Some s -> to_call L s 0 r -> ph s = after d.
Proof.
  intros L d r others es s H R C. destruct (one_run L (d ++ r) es _ _ (one_init L (d ++ r) others H) R) as ((bs & N & O) & _). unfold to_call in C. rewrite N in C. injection C as ->. eapply own_at; [reflexivity|exact O].
Qed.

(** Every connection which was accepted goes on, was closed by the server, or left; with [C116_states]: none goes on once the server is stopped. *)
Theorem C116_closed : forall L ps es s c, run (init L ps) es = Some s -> In (Accepted c) (sent s) -> In c (conns s) \/ In (Closed c) (sent s) \/ In (Leaves c) es.
Proof.
  intros L ps es s c R.
  assert (G : forall es s0, run s0 es = Some s -> (In (Accepted c) (sent s0) -> In c (conns s0) \/ In (Closed c) (sent s0)) ->
    (In (Accepted c) (sent s) -> In c (conns s) \/ In (Closed c) (sent s) \/ In (Leaves c) es)).
  2: { apply (G es _ R). cbn. tauto. }
  clear. induction es as [|e es IH]; intros s0 R H; cbn [run] in R; [injection R as <-; intro X; destruct (H X); auto|].
  destruct (step s0 e) as [s1|] eqn:E; [|discriminate]. intro X.
  destruct (in_dec (fun a b : nat => Nat.eq_dec a b) c (match e with Leaves c' => [c'] | _ => [] end)) as [LV|NL].
  { right. right. left. destruct e; cbn in LV; try easy. destruct LV as [->|[]]. reflexivity. }
  assert (H1 : In (Accepted c) (sent s1) -> In c (conns s1) \/ In (Closed c) (sent s1)).
  { destruct e as [t| |i|k|k|]; cbn [step] in E.
    - destruct (nth_error (threads s0) t) as [[|[|a r0] bs0]|] eqn:NT; try discriminate. destruct (do_part s0 a r0) as [[s2 r1]|] eqn:D; [|discriminate]. injection E as <-. cbn [with_thread sent conns].
      destruct a; cbn [do_part] in D; repeat match type of D with context[match ?x with _ => _ end] => destruct x; try discriminate D end; injection D as <- <-; cbn [sent conns]; auto.
      intro Y. right. apply in_or_app. apply in_app_or in Y as [Y|Y]; [|apply in_map_iff in Y as (? & Q & _); discriminate]. destruct (H Y) as [Z|Z]; [right; now apply in_map|now left].
    - destruct (timer s0); [|discriminate]. injection E as <-. cbn [outside sent conns]. rewrite !in_app_iff. cbn. intros [Y|[Y|[]]]; [|discriminate]. destruct (H Y); auto.
    - destruct (nth i (udp s0) false); injection E as <-; [|auto]. cbn [outside sent conns]. rewrite !in_app_iff. cbn. intros [Y|[Y|[]]]; [|discriminate]. destruct (H Y); auto.
    - destruct (tcp s0); injection E as <-; [|auto]. cbn [outside sent conns]. rewrite !in_app_iff. cbn. intros [Y|[Y|[]]]; [destruct (H Y); auto|]. injection Y as ->. auto.
    - injection E as <-. cbn [outside sent conns]. rewrite app_nil_r. intro Y. destruct (H Y) as [Z|Z]; [left|now right]. apply in_in_remove; [|exact Z]. intros ->. apply NL. now left.
    - destruct (sig s0) as [[|]|]; injection E as <-; auto. }
  destruct (IH _ R H1 X) as [Y|[Y|Y]]; auto. right. right. now right.
Qed.

(** ** run() and interrupt() *)
Lemma left_cons x l : left_to (x :: l) = length (concat x) + left_to l.
Proof. unfold left_to. cbn [concat]. now rewrite concat_app, app_length. Qed.
Lemma left_upd l : forall t x y, nth_error l t = Some x -> left_to (upd l t y) + length (concat x) = left_to l + length (concat y).
Proof.
  induction l as [|z l IH]; intros [|t] x y H; try discriminate; cbn [upd] in *; rewrite !left_cons.
  - injection H as ->. lia.
  - cbn in H. specialize (IH t x y H). lia.
Qed.
Lemma next_le s p r bs : length (concat (next_blocks r (rest s p bs))) <= length r + length (concat bs).
Proof.
  assert (R : length (concat (rest s p bs)) <= length (concat bs)) by (destruct p; cbn [rest]; try lia; destruct (sig s); [|lia]; destruct bs; cbn [tl concat]; [lia|rewrite app_length; lia]).
  destruct r as [|a r]; cbn [next_blocks]; [lia|]. cbn [concat]. rewrite app_length. lia.
Qed.
Definition nthreads (es : list event) : nat := length (filter (fun e => match e with Thread _ => true | _ => false end) es).
Definition b2n (b : bool) : nat := if b then 1 else 0.
(** no block is at Disarm before any wait has ended *)
Definition fresh (s : st) : Prop := (ups s = 0 -> backs s = 0 /\ downs s = 0 /\ done s = false) /\
  (backs s = 0 -> forall t x b, nth_error (threads s) t = Some x -> In b x -> hd Begin b <> Disarm /\ b <> []) /\
  (forall t x b, nth_error (threads s) t = Some x -> In b x -> b <> []).
Lemma in_next s p r bs b : In b (next_blocks r (rest s p bs)) -> (b = r /\ r <> []) \/ In b bs.
Proof.
  assert (T : In b (rest s p bs) -> In b bs) by (destruct p; cbn [rest]; auto; destruct (sig s); auto; destruct bs; cbn; auto).
  destruct r as [|a r]; cbn [next_blocks]; [auto|]. intros [<-|H]; [left; split; [reflexivity|discriminate]|auto].
Qed.
Lemma thread_step L s t s' : inv L s -> fresh s -> step s (Thread t) = Some s' ->
  fresh s' /\ left_to (threads s') < left_to (threads s) /\ backs s' + b2n (done s') + ups s + downs s <= ups s' + downs s' + backs s + b2n (done s).
Proof.
  intros I (FU & FB & FN) S. cbn [step] in S. destruct (nth_error (threads s) t) as [[|[|a r0] bs0]|] eqn:NT; try discriminate.
  destruct (do_part s a r0) as [[s1 r1]|] eqn:D; [|discriminate]. injection S as <-.
  assert (TH : threads s1 = threads s /\ (r1 = r0 \/ r1 = []) /\ length r1 <= length r0 /\ backs s <= backs s1 /\ ups s <= ups s1 /\ backs s1 + b2n (done s1) + ups s + downs s <= ups s1 + downs s1 + backs s + b2n (done s)).
  { destruct a; cbn [do_part] in D; repeat match type of D with context[match ?x with _ => _ end] => let E := fresh in destruct x eqn:E; try discriminate D end; injection D as <- <-; cbn [threads done ups backs downs length]; unfold b2n; repeat split; auto; try lia; try (rewrite H; lia); destruct (done s); lia. }
  destruct TH as (T1 & R1 & LE & BB & UU & CC). split; [|split].
  - split; [|split]; cbn [with_thread ups backs downs done threads]; rewrite ?T1.
    + intro U. assert (U0 : ups s = 0) by lia. destruct (FU U0) as (B0 & D0 & N0).
      assert (HD := proj1 (FB B0 t _ (a :: r0) NT (or_introl eq_refl))). cbn in HD.
      destruct a; cbn [do_part] in D; repeat match type of D with context[match ?x with _ => _ end] => let E := fresh in destruct x eqn:E; try discriminate D end; injection D as <- <-; cbn [ups backs downs done] in *; auto; try lia; congruence.
    + intros B1 u x b X Y. assert (B0 : backs s = 0) by lia. rewrite nth_upd in X. destruct ((u =? t) && (t <? length (threads s))); [|eapply FB; eauto]. injection X as <-.
      apply in_next in Y as [(-> & NE)|Y]; [|eapply (FB B0 t); [exact NT|now right]]. split; [|exact NE].
      destruct R1 as [->| ->]; [|easy].
      assert (NA : a <> Await).
      { intros ->. cbn [do_part] in D. destruct (done s); [|discriminate]. injection D as <-. cbn [backs] in B1. lia. }
      assert (W : Forall (whole L) ((a :: r0) :: bs0) \/ (exists k, mid_start L k (a :: r0)) \/ (exists k, mid_stop L k (a :: r0))).
      { unfold inv in I. destruct (ph s).
        - left. destruct I as (A & _). exact (A _ _ NT).
        - destruct I as (v & k & ((b0 & bs1 & E & P & Q) & O) & _). destruct (Nat.eq_dec t v) as [->|NE']; [right; left; exists k; rewrite NT in E; injection E as <- <-; exact P|]. left. exact (O _ _ NE' NT).
        - left. destruct I as (A & _). exact (A _ _ NT).
        - destruct I as (v & k & ((b0 & bs1 & E & P & Q) & O) & _). destruct (Nat.eq_dec t v) as [->|NE']; [right; right; exists k; rewrite NT in E; injection E as <- <-; exact P|]. left. exact (O _ _ NE' NT). }
      destruct r0 as [|q r0]; [easy|]. cbn [hd]. intros ->. destruct W as [W|[(k & W)|(k & W)]].
      * inversion W as [|? ? W1 _]; subst. apply whole_cases in W1 as [(-> & M)|[(-> & M)|[(-> & Q)|[(-> & Q)|[(-> & Q)|(-> & Q)]]]]]; try discriminate; [| |easy].
        -- apply mid_start_cases in M as [(_ & Q & _)|(_ & Q & _)]; discriminate.
        -- apply mid_stop_cases in M as [(_ & Q & _)|(_ & Q & _)]; discriminate.
      * apply mid_start_cases in W as [(_ & _ & M)|(_ & _ & Q)]; [|discriminate]. apply mid_start_cases in M as [(_ & Q & _)|(_ & Q & _)]; discriminate.
      * apply mid_stop_cases in W as [(_ & _ & M)|(_ & _ & Q)]; [|discriminate]. apply mid_stop_cases in M as [(_ & Q & _)|(_ & Q & _)]; discriminate.
    + intros u x b X Y. rewrite nth_upd in X. destruct ((u =? t) && (t <? length (threads s))); [|eapply FN; eauto]. injection X as <-. apply in_next in Y as [(-> & NE)|Y]; [exact NE|]. eapply (FN t); [exact NT|now right].
  - cbn [with_thread threads]. rewrite T1. pose proof (left_upd (threads s) t _ (next_blocks r1 (rest s a bs0)) NT) as U. pose proof (next_le s a r1 bs0). cbn [concat app length] in U. rewrite app_length in U. lia.
  - cbn [with_thread ups backs downs done]. exact CC.
Qed.
Lemma outside_step s e s' : (forall t, e <> Thread t) -> step s e = Some s' ->
  threads s' = threads s /\ backs s' = backs s /\ downs s' = downs s /\ ((done s' = done s /\ ups s' = ups s) \/ (done s' = true /\ ups s' = ups s + 1)).
Proof.
  intros H S. destruct e as [t| |i|c|c|]; cbn [step] in S; [now destruct (H t)| | | | |]; repeat match type of S with context[match ?x with _ => _ end] => destruct x; try discriminate S end; injection S as <-; cbn; auto 6.
Qed.
Lemma counts L es : forall s s', inv L s -> fresh s -> run s es = Some s' ->
  fresh s' /\ nthreads es + left_to (threads s') <= left_to (threads s) /\ backs s' + b2n (done s') + ups s + downs s <= ups s' + downs s' + backs s + b2n (done s).
Proof.
  induction es as [|e es IH]; intros s s' I F R; cbn [run] in R; [injection R as <-; cbn; split; [exact F|lia]|].
  destruct (step s e) as [s1|] eqn:E; [|discriminate]. pose proof (inv_step L _ _ _ I E) as I1.
  assert (C : (exists t, e = Thread t) \/ (forall t, e <> Thread t)) by (destruct e; [left; eauto|right..]; discriminate).
  destruct C as [(t & ->)|C].
  - destruct (thread_step L _ _ _ I F E) as (F1 & A & B). destruct (IH _ _ I1 F1 R) as (F2 & A2 & B2). split; [exact F2|]. unfold nthreads in *. cbn [filter length]. split; lia.
  - destruct (outside_step _ _ _ C E) as (T & BK & DW & U).
    assert (F1 : fresh s1).
    { destruct F as (FU & FB & FN). split; [|split]; rewrite ?T, ?BK, ?DW; auto. intro Z. destruct U as [(-> & U)|(_ & U)]; [|lia]. apply FU. lia. }
    destruct (IH _ _ I1 F1 R) as (F2 & A2 & B2). split; [exact F2|]. rewrite T, BK, DW in *. unfold nthreads in *. split.
    + destruct e; [now destruct (C t)|..]; cbn [filter]; lia.
    + destruct U as [(UD & U)|(UD & U)]; rewrite UD, U in B2; unfold b2n in *; [|destruct (done s)]; lia.
Qed.
Lemma parts_hd L c b : In b (parts L c) -> hd Begin b <> Disarm /\ b <> [].
Proof. destruct c; cbn [parts In]; intro H; repeat destruct H as [<-|H]; try easy; cbn; split; discriminate. Qed.
Lemma fresh_init L ps : fresh (init L ps).
Proof.
  assert (H : forall t x b, nth_error (threads (init L ps)) t = Some x -> In b x -> hd Begin b <> Disarm /\ b <> []).
  { intros t x b X Y. cbn [init threads] in X. rewrite nth_error_map in X. destruct (nth_error ps t) as [q|]; [|discriminate]. injection X as <-. apply in_flat_map in Y as (c & _ & Y). now apply parts_hd in Y. }
  split; [auto|]. split; [auto|]. intros t x b X Y. eapply H; eauto.
Qed.
(** While nobody has called interrupt(), and no signal has reached the handler, no run() has been let go by its wait.  In general: there are at most as many of these as calls of
    interrupt(), signals, and SigInts destroyed without one. *)
Theorem C116_run_partial : forall L ps es s, run (init L ps) es = Some s ->
  (ups s = 0 -> backs s = 0) /\ backs s + (if done s then 1 else 0) <= ups s + downs s.
Proof. intros L ps es s R. destruct (counts L es _ _ (inv_init L ps) (fresh_init L ps) R) as ((FU & _) & _ & H). unfold b2n in H. cbn [init ups downs backs done] in H. split; [intro U; now apply FU|lia]. Qed.
(** Calls come to an end: there are only so many steps of threads; where none is possible each thread has made all of its calls, or waits in run(), and no interrupt() is pending. *)
Theorem C116_ends : forall L ps es s, run (init L ps) es = Some s ->
  nthreads es <= left_to (threads (init L ps)) /\
  (stuck s -> forall t bs, nth_error (threads s) t = Some bs -> bs = [] \/ (done s = false /\ exists r bs', bs = (Await :: r) :: bs')).
Proof.
  intros L ps es s R. destruct (counts L es _ _ (inv_init L ps) (fresh_init L ps) R) as ((_ & _ & FN) & N & _). split; [lia|]. intros ST t bs T. destruct bs as [|b bs]; [now left|]. right.
  destruct b as [|a r]; [now destruct (FN t _ [] T (or_introl eq_refl))|]. specialize (ST t). cbn [step] in ST. rewrite T in ST. destruct (do_part s a r) as [[s1 r1]|] eqn:D; [discriminate|].
  destruct a; cbn [do_part] in D; try discriminate; try (destruct (ph s); discriminate).
  - destruct (sig s); discriminate.
  - destruct (done s); [discriminate|]. split; [reflexivity|]. eauto.
  - destruct (sig s) as [[|]|]; discriminate.
Qed.
(** One thread, and others which interrupt: while it waits in run() the server is running. *)
Theorem C116_waits : forall L p others es s bs, (forall o, In o others -> Forall (eq Interrupt) o) ->
  run (init L (p :: others)) es = Some s -> nth_error (threads s) 0 = Some ([Await; Disarm] :: bs) -> ph s = Running.
Proof.
  intros L p others es s bs H R N. destruct (one_run L p es _ _ (one_init L p others H) R) as ((bs' & N' & O) & _). rewrite N in N'. injection N' as <-.
  destruct O as (d & r & P & [(B & F & G)|[(r' & k & b & -> & M & B & F & G)|[(r' & k & b & -> & M & B & F & G)|[(r' & k & b & -> & M & B & F & G)|[(r' & -> & B & F & G)|[(r' & -> & B & F)|[(r' & -> & B & F)|[(r' & -> & B & F & G)|(r' & k & b & -> & M & B & F & G)]]]]]]]]); auto.
  - destruct r as [|c r]; [discriminate B|]. destruct c; discriminate B.
  - injection B as <- _. apply mid_start_cases in M as [(_ & Q & _)|(_ & Q & _)]; discriminate.
  - injection B as <- _. apply mid_stop_cases in M as [(_ & Q & _)|(_ & Q & _)]; discriminate.
  - injection B as <- _. apply mid_start_cases in M as [(_ & Q & _)|(_ & Q & _)]; discriminate.
  - injection B as <- _. apply mid_stop_cases in M as [(_ & Q & _)|(_ & Q & _)]; discriminate.
Qed.

(** The end of a run() which was interrupted calls the handler for signals, and with this ends the next run() at once: one interrupt(), no signal, and two calls of run() return. *)
Theorem C116_run_again_refuted : exists es s, run (init 1 [[Run; Run]; [Interrupt]]) es = Some s /\ threads s = [[]; []] /\ ups s = 1 /\ backs s = 2 /\ ~ In Signal es.
Proof. exists (repeat (Thread 0) 4 ++ Thread 1 :: repeat (Thread 0) (5 + 9)). eexists. split; [vm_compute; reflexivity|]. repeat split. cbn. intuition discriminate. Qed.
(** A run() need not wait for an interrupt() made after it was called: one made before, with nobody in run(), is kept, and the next run() returns at once. *)
Theorem C116_stale_refuted : exists es s, run (init 1 [[Interrupt; Start; Stop; Run]]) es = Some s /\ threads s = [[]].
Proof. exists (repeat (Thread 0) (1 + 3 + 3 + 9)). eexists. split; [vm_compute; reflexivity|]. reflexivity. Qed.
(** run() called while another thread is in run() ends by an exception, without interrupt() or a signal, and leaves the server running. *)
Theorem C116_two_runs_refuted : exists es s, run (init 1 [[Run]; [Run]]) es = Some s /\ nth_error (threads s) 1 = Some [] /\ ph s = Running /\ ups s = 0.
Proof. exists (repeat (Thread 0) 4 ++ repeat (Thread 1) 2). eexists. split; [vm_compute; reflexivity|]. repeat split. Qed.
(** stop() called while another thread is in start() returns, and leaves the server running; start() called while another is in stop() leaves it stopped. *)
Theorem C116_overlap_refuted :
  (exists es s, run (init 1 [[Start]; [Stop]]) es = Some s /\ hd (Thread 1) es = Thread 0 /\ threads s = [[]; []] /\ ph s = Running) /\
  (exists es s, run (init 1 [[Start; Stop]; [Start]]) es = Some s /\ threads s = [[]; []] /\ ph s = Stopped /\ nth 4 es (Thread 0) = Thread 1 /\ nth 3 es (Thread 1) = Thread 0).
Proof.
  split.
  - exists [Thread 0; Thread 1; Thread 0; Thread 0]. eexists. split; [vm_compute; reflexivity|]. repeat split; reflexivity.
  - exists [Thread 0; Thread 0; Thread 0; Thread 0; Thread 1; Thread 0; Thread 0]. eexists. split; [vm_compute; reflexivity|]. repeat split; reflexivity.
Qed.

(** A server with two interfaces runs, serves a client and a search, is interrupted, and is silent after that; it can be started again. *)
Example C116_example :
  let es := [Connects 1; Search 0] ++ repeat (Thread 0) 5 ++ [Connects 5; Search 1; Expires; Thread 1; Thread 0; Thread 0] ++ repeat (Thread 0) 4 ++ [Connects 6; Search 0] in
  exists s s', run (init 2 [[Run; Start]; [Interrupt]]) es = Some s /\ to_call 2 s 0 [Start] /\ ph s = Stopped /\ sent s = [Accepted 5; Reply 1; Beacon; Closed 5] /\
  run s (repeat (Thread 0) 4 ++ [Connects 7]) = Some s' /\ to_call 2 s' 0 [] /\ ph s' = Running /\ sent s' = sent s ++ [Accepted 7] /\ stuck s'.
Proof.
  vm_compute. do 2 eexists. split; [reflexivity|]. split; [reflexivity|]. split; [reflexivity|]. split; [reflexivity|]. split; [reflexivity|]. split; [reflexivity|]. split; [reflexivity|]. split; [reflexivity|].
  intros [|[|[|t]]]; reflexivity.
Qed.
Example C116_example_waits : exists s s', run (init 2 [[Run]; [Interrupt]]) (repeat (Thread 0) 5) = Some s /\ nth_error (threads s) 0 = Some ([Await; Disarm] :: [stop_parts 2]) /\
  run s (Signal :: repeat (Thread 0) 6) = Some s' /\ nth_error (threads s') 0 = Some [] /\ ph s' = Stopped /\ done s' = false.
Proof. vm_compute. do 2 eexists. repeat split. Qed.

Print Assumptions C116_states.
Print Assumptions C116_calls_partial.
Print Assumptions C116_closed.
Print Assumptions C116_run_partial.
Print Assumptions C116_ends.
Print Assumptions C116_waits.
Print Assumptions C116_run_again_refuted.
Print Assumptions C116_stale_refuted.
Print Assumptions C116_two_runs_refuted.
Print Assumptions C116_overlap_refuted.

(** Once interrupt() was called, or a signal reached the handler, any waiting run() can go on. *)
Theorem C116_interrupt : forall L ps es s e s' u r bs, run (init L ps) es = Some s -> step s e = Some s' -> ups s < ups s' ->
  nth_error (threads s') u = Some ((Await :: r) :: bs) -> exists s'', step s' (Thread u) = Some s'' /\ backs s'' = backs s' + 1.
Proof.
  intros L ps es s e s' u r bs R S U W.
  assert (D : done s' = true).
  { assert (C : (exists t, e = Thread t) \/ (forall t, e <> Thread t)) by (destruct e; [left; eauto|right..]; discriminate). destruct C as [(t & ->)|C].
    - cbn [step] in S. destruct (nth_error (threads s) t) as [[|[|a r0] bs0]|] eqn:NT; try discriminate. destruct (do_part s a r0) as [[s1 r1]|] eqn:D; [|discriminate]. injection S as <-. cbn [with_thread ups done] in *.
      destruct a; cbn [do_part] in D; repeat match type of D with context[match ?x with _ => _ end] => destruct x; try discriminate D end; injection D as <- <-; cbn [ups done] in *; auto; lia.
    - destruct (outside_step _ _ _ C S) as (_ & _ & _ & [(_ & Q)|(Q & _)]); [lia|exact Q]. }
  cbn [step]. rewrite W. cbn [do_part]. rewrite D. eexists. split; [reflexivity|]. reflexivity.
Qed.
(** Both ways. *)
Example C116_example_interrupt : exists s s1 s2, run (init 2 [[Run]; [Interrupt]]) (repeat (Thread 0) 5) = Some s /\ ups s = 0 /\
  step s (Thread 1) = Some s1 /\ ups s1 = 1 /\ nth_error (threads s1) 0 = Some ([Await; Disarm] :: [stop_parts 2]) /\ step s Signal = Some s2 /\ ups s2 = 1 /\ nth_error (threads s2) 0 = nth_error (threads s1) 0.
Proof. vm_compute. do 3 eexists. repeat split. Qed.

Print Assumptions C116_interrupt.
