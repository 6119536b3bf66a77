(** PVA links: whether a record gets on which uses one (C108). *)
From Coq Require Import List Bool Arith.
From Verif Require Import LinkLockModel LinkLockProofs.
Import ListNotations.

Definition reachable (s : st) : Prop := exists h, s = run start h.
(** A thread can still finish what it does with a link. *)
Definition can_return (s : st) (t : nat) : Prop := exists h, th (run s h) t = Idle.
(** The worker of the client is in a callback of a PUT and wants the lock of its channel, which
    a thread has which waits for that worker, or will wait when it goes on. *)
Definition crossed (s : st) (c : nat) : Prop :=
  (exists d, wk s = WWant c d) /\ exists t j, th s t = Waits c j \/ (th s t = Hold c j /\ op s c = true /\ j <> Use).

(** Unless that has happened, every thread can finish, whatever others do meanwhile. *)
Theorem C108_returns_partial : forall s t, reachable s -> (forall c, ~ crossed s c) -> can_return s t.
Proof.
  intros s t (g & ->) N. apply returns; [exact (inv_run g start inv_start)|]. intros c d W u j. split.
  - intros T. apply (N c). split; [exists d; exact W|]. exists u, j. left. exact T.
  - intros T. destruct (waits j (op (run start g) c)) eqn:E; [|reflexivity]. exfalso. apply (N c). split; [exists d; exact W|]. exists u, j. right. split; [exact T|]. unfold waits in E. destruct j; [|  |discriminate E]; split; try exact E; discriminate.
Qed.
(** When it has, the thread never finishes, nor does any other which then waits for the worker or
    for that lock, and the worker never does anything again. *)
Theorem C108_crossed : forall s t c j d, reachable s -> th s t = Waits c j -> wk s = WWant c d ->
  (forall u, (exists e k, th s u = Waits e k) \/ (exists k, th s u = Want c k) -> ~ can_return s u) /\ forall h, wk (run s h) = WWant c d.
Proof.
  intros s t c j d (g & ->) T W. pose proof (inv_run g start inv_start) as IV. split; [|intros h; exact (proj2 (stuck_run h t c j d _ IV T W))].
  intros u [(e & k & U)|(k & U)] (h & H).
  - rewrite (waiter_run h u e k c d _ IV U W t j T) in H. discriminate.
  - rewrite (wanter_run h u k c d _ IV U W t j T) in H. discriminate.
Qed.
Definition lk_cross : list event := [Call 1 0 Put; Lock 1; Go 1; Unlock 1; Call 2 0 Put; Lock 2; Callback 0 false; Go 2].
(** It does happen: a record writes to a link while the server answers for the previous value. *)
Theorem C108_deadlock_refuted : exists s t, reachable s /\ ~ can_return s t.
Proof.
  exists (run start lk_cross), 2. split; [exists lk_cross; reflexivity|].
  apply (proj1 (C108_crossed (run start lk_cross) 2 0 Put false (ex_intro _ lk_cross eq_refl) eq_refl eq_refl)). left. exists 0, Put. reflexivity.
Qed.
Example C108_returns_ex : let s := run start [Call 1 0 Put; Lock 1; Go 1; Unlock 1; Call 2 0 Put; Lock 2; Go 2; Call 3 0 Put] in
  th s 2 = Waits 0 Put /\ th s 3 = Want 0 Put /\ (forall c, ~ crossed s c) /\ can_return s 3.
Proof.
  intros s. split; [reflexivity|]. split; [reflexivity|]. split; [intros c ((d & W) & _); discriminate W|]. exists [Cancel; Unlock 2; Lock 3; Go 3; Cancel; Unlock 3]. reflexivity.
Qed.

Print Assumptions C108_returns_partial.
Print Assumptions C108_crossed.
Print Assumptions C108_deadlock_refuted.
