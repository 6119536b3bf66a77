(** C115: MPMCFIFO, the queue between threads. *)
From Coq Require Import List Bool Arith Lia.
From Verif Require Import FifoModel FifoSpec FifoProofs.
Import ListNotations.

Lemma nth_len {A} (l : list A) t x : nth_error l t = Some x -> t < length l.
Proof. intro H. apply nth_error_Some. congruence. Qed.
Lemma by_app t a b : by_thread t (a ++ b) = by_thread t a ++ by_thread t b.
Proof. unfold by_thread. now rewrite filter_app, map_app. Qed.
(** The calls of each thread, done and to be done. *)
Definition acct (ps : list (list call)) (s : st) : Prop := length (threads s) = length ps /\ forall t p x, nth_error ps t = Some p -> nth_error (threads s) t = Some x ->
  pushes p = by_thread t (ins s) ++ pushes (calls x) /\ pops p = length (by_thread t (outs s)) + pops (calls x).
Lemma acct_step limit ps s t s' : acct ps s -> step limit s t = Some s' -> acct ps s'.
Proof.
  intros (L & A) S. unfold step in S. destruct (nth_error (threads s) t) as [[cs a]|] eqn:N; [|discriminate]. cbn [at_ calls] in S. pose proof (nth_len _ _ _ N) as TL.
  assert (K : forall q' nw nr fw fr y i o, (forall p, nth_error ps t = Some p -> pushes p = by_thread t (ins s ++ i) ++ pushes (calls y) /\ pops p = length (by_thread t (outs s ++ o)) + pops (calls y)) ->
     (forall e, In e i \/ In e o -> fst e = t) ->
     acct ps {| q := q'; nwriters := nw; nreaders := nr; flagW := fw; flagR := fr; threads := upd (threads s) t y; ins := ins s ++ i; outs := outs s ++ o |}).
  { intros q' nw nr fw fr y i o HY HE. split; cbn [threads ins outs]; [now rewrite len_upd|]. intros u p x P X. rewrite nth_upd in X. destruct (Nat.eqb_spec u t) as [->|NE]; cbn [andb] in X.
    - rewrite (proj2 (Nat.ltb_lt _ _) TL) in X. injection X as <-. auto.
    - assert (Z : forall l : list (nat * nat), (forall e, In e l -> fst e = t) -> by_thread u l = []).
      { unfold by_thread. induction l as [|e l IH]; intro H; [reflexivity|]. cbn [filter]. rewrite (H e (or_introl eq_refl)). rewrite (proj2 (Nat.eqb_neq t u)) by auto. apply IH. intros e' E'. apply H. now right. }
      rewrite !by_app, (Z i), (Z o), !app_nil_r by (intros e E; apply HE; auto). eauto. }
  assert (K0 : forall q' nw nr fw fr y, calls y = cs ->
     acct ps {| q := q'; nwriters := nw; nreaders := nr; flagW := fw; flagR := fr; threads := upd (threads s) t y; ins := ins s; outs := outs s |}).
  { intros q' nw nr fw fr y Y. specialize (K q' nw nr fw fr y [] []). rewrite !app_nil_r in K. apply K; [|intros e [[]|[]]]. intros p P. rewrite Y. exact (A t p _ P N). }
  assert (T : forall u, by_thread t [(t, u)] = [u]) by (intro u; unfold by_thread; cbn; now rewrite Nat.eqb_refl).
  assert (KP : forall v r wk, cs = Push v :: r -> acct ps (enter_push limit s t v r wk)).
  { intros v r wk ->. unfold enter_push. destruct (full limit (q s)); [apply K0; reflexivity|]. cbv zeta. specialize (K (q s ++ [v]) (if wk then nwriters s - 1 else nwriters s) (nreaders s) (flagW s) (flagR s)). 
    match goal with |- acct ps {| q := _; nwriters := _; nreaders := _; flagW := _; flagR := _; threads := upd _ _ ?y; ins := _; outs := _ |} => specialize (K y [(t, v)] []) end. rewrite app_nil_r in K.
    apply K; [|intros e [[<-|[]]|[]]; reflexivity]. intros p P. destruct (A t p _ P N) as (A1 & A2). cbn [calls] in *. rewrite by_app, T. split; [rewrite A1, <- app_assoc; reflexivity|exact A2]. }
  assert (KR : forall r wk, cs = Pop :: r -> acct ps (enter_pop s t r wk)).
  { intros r wk ->. unfold enter_pop. destruct (q s) as [|v qs]; [apply K0; reflexivity|]. cbv zeta. specialize (K qs (nwriters s) (if wk then nreaders s - 1 else nreaders s) (flagW s) (flagR s)).
    match goal with |- acct ps {| q := _; nwriters := _; nreaders := _; flagW := _; flagR := _; threads := upd _ _ ?y; ins := _; outs := _ |} => specialize (K y [] [(t, v)]) end. rewrite app_nil_r in K.
    apply K; [|intros e [[]|[<-|[]]]; reflexivity]. intros p P. destruct (A t p _ P N) as (A1 & A2). cbn [calls] in *. rewrite by_app, T, app_length. split; [exact A1|]. rewrite A2. unfold pops. cbn. lia. }
  unfold place_of, flags in S. cbn [q nwriters nreaders flagW flagR threads ins outs] in S.
  destruct a as [| | |[] w]; destruct cs as [|[v|] r]; try discriminate S; try (injection S as <-; auto; fail);
    try (destruct (flagW s); [injection S as <-|discriminate S]; auto; fail); try (destruct (flagR s); [injection S as <-|discriminate S]; auto; fail).
Qed.
Lemma acct_run limit ps es : forall s s', acct ps s -> run limit s es = Some s' -> acct ps s'.
Proof. induction es as [|e es IH]; intros s s' A R; cbn [run] in R; [now injection R as <-|]. destruct (step limit s e) as [s1|] eqn:E; [|discriminate]. eapply IH; [|exact R]. eapply acct_step; eauto. Qed.
Lemma acct_init ps : acct ps (init ps).
Proof.
  split; cbn [init threads ins outs]; [apply map_length|]. intros t p x P X. rewrite nth_error_map, P in X. injection X as <-. cbn. auto.
Qed.

(** Whatever threads push and pop, in any order: elements come out in the order in which they went in, each once, none of them lost; the queue keeps
    within its limit; and each thread has pushed its own elements in its order, and got as many elements as it has popped. *)
Theorem C115_fifo : forall limit ps es s, run limit (init ps) es = Some s ->
  map snd (ins s) = map snd (outs s) ++ q s /\ (0 < limit -> length (q s) <= limit) /\
  (forall t p, nth_error ps t = Some p -> exists rest, remains s t rest /\ pushes p = by_thread t (ins s) ++ pushes rest /\ pops p = length (by_thread t (outs s)) + pops rest).
Proof.
  intros limit ps es s R. destruct (inv_run limit es _ _ (inv_init limit ps) R) as (I & _). split; [exact (i_fifo _ _ I)|]. split; [exact (i_lim _ _ I)|].
  destruct (acct_run limit ps es _ _ (acct_init ps) R) as (L & A). intros t p P. destruct (nth_error (threads s) t) as [x|] eqn:X.
  - exists (calls x). split; [exists x; auto|]. exact (A t p x P X).
  - exfalso. apply nth_error_None in X. pose proof (nth_len _ _ _ P). lia.
Qed.
(** They come to an end, which is: all calls have returned; or the queue is empty, and who has not finished is in pop(); or it is full, and who has not finished is in push(). *)
Theorem C115_ends : forall limit ps, exists bound, forall es s, run limit (init ps) es = Some s -> length es <= bound /\
  (stuck limit s ->
    (forall t p, remains s t p -> p = []) \/
    (q s = [] /\ forall t p, remains s t p -> p = [] \/ exists r, p = Pop :: r) \/
    (0 < limit /\ length (q s) = limit /\ forall t p, remains s t p -> p = [] \/ exists v r, p = Push v :: r)).
Proof.
  intros limit ps. exists (weight (init ps)). intros es s R. destruct (inv_run limit es _ _ (inv_init limit ps) R) as (I & W & _). split; [lia|]. intro S.
  destruct (Nat.eq_dec (cnt (fun x => length (calls x)) (threads s)) 0) as [E|E].
  - left. intros t p (x & N & <-). pose proof (cnt_pos (fun x => length (calls x)) _ _ _ N) as Q. cbn beta in Q. destruct (calls x); [reflexivity|cbn in Q; lia].
  - right. destruct (cnt_ex (fun x => length (calls x)) (threads s)) as (t0 & x0 & N0 & P0); [lia|].
    destruct (idle limit s t0 x0 I (S t0) N0) as [(_ & Q)|[(v & r & A0 & C0 & _)|(r & A0 & C0 & _)]]; [rewrite Q in P0; cbn in P0; lia| |].
    + right. destruct (stuck_writer limit s t0 x0 v r I S N0 A0 C0) as (L1 & L2). split; [exact L1|]. split; [exact L2|]. intros t p (x & N & <-).
      destruct (idle limit s t x I (S t) N) as [(_ & Q)|[(v' & r' & _ & Q & _)|(r' & A & C & _)]]; [auto|right; eauto|]. exfalso.
      rewrite (stuck_reader limit s t x r' I S N A C) in L2. cbn in L2. lia.
    + left. assert (Q0 := stuck_reader limit s t0 x0 r I S N0 A0 C0). split; [exact Q0|]. intros t p (x & N & <-).
      destruct (idle limit s t x I (S t) N) as [(_ & Q)|[(v' & r' & A & C & _)|(r' & _ & Q & _)]]; [auto| |right; eauto]. exfalso.
      destruct (stuck_writer limit s t x v' r' I S N A C) as (L1 & L2). rewrite Q0 in L2. cbn in L2. lia.
Qed.
(** So between threads which only push and threads which only pop, as many elements: all arrive. *)
Theorem C115_all_delivered : forall limit ps es s,
  (forall p, In p ps -> pops p = 0 \/ pushes p = []) -> total pops ps = total (fun p => length (pushes p)) ps ->
  run limit (init ps) es = Some s -> stuck limit s ->
  (forall t p, remains s t p -> p = []) /\ map snd (outs s) = map snd (ins s) /\ length (ins s) = total (fun p => length (pushes p)) ps.
Proof.
  intros limit ps es s ONE EQ R S. destruct (inv_run limit es _ _ (inv_init limit ps) R) as (I & _ & TP & TR). destruct (C115_ends limit ps) as (b & B). destruct (B es s R) as (_ & E). specialize (E S).
  assert (PW : forall l, length (filter (fun c => match c with Pop => false | _ => true end) l) = length (pushes l)).
  { induction l as [|[v|] l IH]; cbn in *; auto. }
  assert (T0 : cnt npush (threads (init ps)) = total (fun p => length (pushes p)) ps /\ cnt npops (threads (init ps)) = total pops ps).
  { clear - PW. unfold total, init. cbn [threads]. induction ps as [|p ps (IH1 & IH2)]; [auto|]. cbn [map cnt]. rewrite IH1, IH2. unfold npush, npops. cbn [calls]. rewrite PW. split; reflexivity. }
  destruct T0 as (T1 & T2). rewrite T1 in TP. rewrite T2 in TR. cbn [init ins outs length] in TP, TR.
  assert (LQ : length (ins s) = length (outs s) + length (q s)).
  { pose proof (f_equal (@length _) (i_fifo _ _ I)) as F. rewrite app_length, !map_length in F. exact F. }
  assert (G : forall t p, remains s t p -> p = []).
  { destruct E as [E|[(Q & E)|(L & Q & E)]]; [exact E| |]; intros t p RM; destruct (E t p RM) as [->|X]; auto; exfalso.
    - destruct X as (r & ->). destruct RM as (x & N & C). pose proof (cnt_pos npops _ _ _ N) as P. unfold npops at 1 in P. rewrite C in P. cbn [filter length] in P. rewrite Q in LQ. cbn [length] in LQ.
      assert (NP : 0 < cnt npush (threads s)) by lia. destruct (cnt_ex _ _ NP) as (t' & x' & N' & P'). unfold npush in P'. rewrite PW in P'.
      destruct (E t' (calls x')) as [X|(r' & X)]; [exists x'; auto|rewrite X in P'; cbn in P'; lia|].
      destruct (acct_run limit ps es _ _ (acct_init ps) R) as (AL & A). destruct (nth_error ps t') as [p'|] eqn:PN; [|apply nth_error_None in PN; pose proof (nth_len _ _ _ N'); lia].
      destruct (A t' p' x' PN N') as (A1 & A2). destruct (ONE p' (nth_error_In _ _ PN)) as [Z|Z].
      + rewrite X in A2. unfold pops in A2 at 2. cbn in A2. lia.
      + rewrite Z in A1. symmetry in A1. apply app_eq_nil in A1. destruct A1 as (_ & A1). rewrite A1 in P'. cbn in P'. lia.
    - destruct X as (v & r & ->). destruct RM as (x & N & C). pose proof (cnt_pos npush _ _ _ N) as P. unfold npush at 1 in P. rewrite C in P. cbn [filter length] in P.
      assert (NP : 0 < cnt npops (threads s)) by lia. destruct (cnt_ex _ _ NP) as (t' & x' & N' & P').
      destruct (E t' (calls x')) as [X|(v' & r' & X)]; [exists x'; auto|unfold npops in P'; rewrite X in P'; cbn in P'; lia|].
      destruct (acct_run limit ps es _ _ (acct_init ps) R) as (AL & A). destruct (nth_error ps t') as [p'|] eqn:PN; [|apply nth_error_None in PN; pose proof (nth_len _ _ _ N'); lia].
      destruct (A t' p' x' PN N') as (A1 & A2). destruct (ONE p' (nth_error_In _ _ PN)) as [Z|Z].
      + unfold npops in P'. fold (pops (calls x')) in P'. lia.
      + rewrite Z, X in A1. symmetry in A1. apply app_eq_nil in A1. destruct A1 as (_ & A1). discriminate A1. }
  split; [exact G|].
  assert (Z1 : cnt npops (threads s) = 0).
  { destruct (Nat.eq_dec (cnt npops (threads s)) 0) as [Z|Z]; [exact Z|]. destruct (cnt_ex npops (threads s)) as (t & x & N & P); [lia|]. unfold npops in P. rewrite (G t (calls x)) in P; [cbn in P; lia|exists x; auto]. }
  assert (Z2 : cnt npush (threads s) = 0).
  { destruct (Nat.eq_dec (cnt npush (threads s)) 0) as [Z|Z]; [exact Z|]. destruct (cnt_ex npush (threads s)) as (t & x & N & P); [lia|]. unfold npush in P. rewrite (G t (calls x)) in P; [cbn in P; lia|exists x; auto]. }
  split; [|lia]. pose proof (i_fifo _ _ I) as F. assert (q s = []) as Q by (destruct (q s); [reflexivity|cbn [length] in LQ; lia]). rewrite Q, app_nil_r in F. symmetry. exact F.
Qed.

(** Two threads which push two elements each, a limit of one, and two which pop: a run in which all four wait. *)
Example C115_example : exists es s, run 1 (init [[Push 1; Push 2]; [Push 3; Push 4]; [Pop; Pop]; [Pop; Pop]]) es = Some s /\
  (exists es1 es2 s1, es = es1 ++ es2 /\ run 1 (init [[Push 1; Push 2]; [Push 3; Push 4]; [Pop; Pop]; [Pop; Pop]]) es1 = Some s1 /\ nreaders s1 = 2 /\ nwriters s1 = 2) /\
  map snd (outs s) = [1; 3; 2; 4] /\ q s = [] /\ (forall t, step 1 s t = None).
Proof.
  exists ([2; 3; 0; 1; 0; 0] ++ [2; 2; 2; 1; 1; 1; 1; 3; 3; 3; 0; 0; 2; 2; 1; 1; 3]). eexists. split; [vm_compute; reflexivity|].
  split; [exists [2; 3; 0; 1; 0; 0]; eexists; eexists; split; [reflexivity|]; split; [vm_compute; reflexivity|]; split; reflexivity|].
  split; [reflexivity|]. split; [reflexivity|]. intro t. do 4 (destruct t as [|t]; [reflexivity|]). destruct t; reflexivity.
Qed.

Print Assumptions C115_fifo.
Print Assumptions C115_ends.
Print Assumptions C115_all_delivered.
