(** Proofs about the operations of a server connection. *)
From Coq Require Import List Bool Arith NArith Lia ZifyBool ZifyNat ZifyN.
From Verif Require Import ServerOpModel ServerOpSpec.
Import ListNotations.

(** ** Identifiers *)
Fixpoint nexts (n : nat) (x : N) : list N := match n with O => [] | S n' => x :: nexts n' (succ32 x) end.
Fixpoint iter32 (n : nat) (x : N) : N := match n with O => x | S n' => iter32 n' (succ32 x) end.
Lemma iter32_val : forall n x, (x < W32)%N -> iter32 n x = N.modulo (x + N.of_nat n) W32.
Proof.
  induction n as [|n IH]; intros x H; cbn [iter32].
  - rewrite N.add_0_r. symmetry. apply N.mod_small; exact H.
  - rewrite IH by (apply N.mod_lt; discriminate). unfold succ32.
    rewrite N.add_mod_idemp_l by discriminate. f_equal. lia.
Qed.
Lemma nexts_in : forall n x y, In y (nexts n x) <-> exists k, k < n /\ y = iter32 k x.
Proof.
  induction n as [|n IH]; intros x y; cbn [nexts]; split.
  - intros [].
  - intros (k & H & _). lia.
  - intros [<-|H]. { exists 0. split; [lia|reflexivity]. }
    apply IH in H as (k & H & ->). exists (S k). split; [lia|reflexivity].
  - intros ([|k] & H & ->). { left; reflexivity. }
    right. apply IH. exists k. split; [lia|reflexivity].
Qed.
Lemma nexts_nodup : forall n x, (x < W32)%N -> (N.of_nat n <= W32)%N -> NoDup (nexts n x).
Proof.
  induction n as [|n IH]; intros x H L; cbn [nexts]; constructor.
  - rewrite nexts_in. intros (k & K & E).
    assert (V : iter32 (S k) x = x) by (symmetry; exact E).
    rewrite iter32_val in V by exact H.
    destruct (N.lt_ge_cases (x + N.of_nat (S k)) W32) as [Q|Q].
    + rewrite N.mod_small in V by exact Q. lia.
    + assert (M : ((x + N.of_nat (S k)) mod W32 = x + N.of_nat (S k) - W32)%N).
      { symmetry. apply (N.mod_unique _ _ 1); lia. }
      lia.
  - apply IH; [apply N.mod_lt; discriminate|lia].
Qed.
Lemma nexts_length : forall n x, length (nexts n x) = n.
Proof. induction n; intros; cbn; [reflexivity|rewrite IHn; reflexivity]. Qed.
Lemma existsb_in : forall x l, existsb (N.eqb x) l = true <-> In x l.
Proof.
  intros x l. rewrite existsb_exists. split.
  - intros (y & H & E). apply N.eqb_eq in E as ->. exact H.
  - intros H. exists x. split; [exact H|apply N.eqb_refl].
Qed.
Lemma pick_fails : forall n x u, pick n x u = None -> forall y, In y (nexts n x) -> In y u.
Proof.
  induction n as [|n IH]; intros x u; cbn [pick nexts]. { intros _ y []. }
  destruct (existsb (N.eqb x) u) eqn:E; [|discriminate]. intros P y [<-|H].
  - apply existsb_in; exact E.
  - eapply IH; eassumption.
Qed.
Lemma pick_spec : forall n x u id nx, (x < W32)%N -> pick n x u = Some (id, nx) ->
  ~ In id u /\ (id < W32)%N /\ nx = succ32 id.
Proof.
  induction n as [|n IH]; intros x u id nx H; cbn [pick]. { discriminate. }
  destruct (existsb (N.eqb x) u) eqn:E.
  - intros P. eapply IH; [|exact P]. apply N.mod_lt; discriminate.
  - injection 1 as <- <-. repeat split; [|exact H].
    intros I. apply existsb_in in I. congruence.
Qed.
Lemma fresh_spec : forall x u, (x < W32)%N -> (N.of_nat (length u) < W32)%N ->
  exists id, fresh x u = Some (id, succ32 id) /\ ~ In id u /\ (id < W32)%N.
Proof.
  intros x u H L. unfold fresh. destruct (pick (S (length u)) x u) as [[id nx]|] eqn:P.
  - pose proof (pick_spec _ _ _ _ _ H P) as (A & B & ->). exists id. auto.
  - exfalso. pose proof (pick_fails _ _ _ P) as I.
    assert (length (nexts (S (length u)) x) <= length u).
    { apply NoDup_incl_length; [apply nexts_nodup; [exact H|lia]|exact I]. }
    rewrite nexts_length in *. lia.
Qed.

(** ** Tables *)
Lemma upd_same : forall A (l : list A) i x, i < length l -> nth_error (upd i x l) i = Some x.
Proof. induction l as [|a l IH]; intros [|i] x H; cbn in *; try lia; [reflexivity|apply IH; lia]. Qed.
Lemma upd_other : forall A (l : list A) i j x, i <> j -> nth_error (upd i x l) j = nth_error l j.
Proof. induction l as [|a l IH]; intros [|i] [|j] x H; cbn; try reflexivity; try lia. apply IH; lia. Qed.
Lemma upd_length : forall A (l : list A) i x, length (upd i x l) = length l.
Proof. induction l as [|a l IH]; intros [|i] x; cbn; [reflexivity..|rewrite IH; reflexivity]. Qed.
Lemma nth_lt : forall A (l : list A) i x, nth_error l i = Some x -> i < length l.
Proof. intros. apply nth_error_Some. congruence. Qed.
Lemma nth_upd : forall A (l : list A) i j x y, nth_error l i = Some y ->
  nth_error (upd i x l) j = if j =? i then Some x else nth_error l j.
Proof.
  intros A l i j x y H. apply nth_lt in H. destruct (Nat.eqb_spec j i) as [->|D].
  - apply upd_same; exact H.
  - apply upd_other; lia.
Qed.
Lemma nth_app_new : forall A (l : list A) i x,
  nth_error (l ++ [x]) i = if i =? length l then Some x else nth_error l i.
Proof.
  intros A l i x. destruct (Nat.eqb_spec i (length l)) as [->|D].
  - rewrite nth_error_app2, Nat.sub_diag by lia. reflexivity.
  - destruct (Nat.lt_ge_cases i (length l)).
    + apply nth_error_app1; exact H.
    + rewrite nth_error_app2 by lia. rewrite (proj2 (nth_error_None l i)) by lia.
      apply nth_error_None. cbn. lia.
Qed.
Lemma get_del_same : forall k m, get k (del k m) = None.
Proof.
  induction m as [|[k' v] m IH]; cbn; [reflexivity|].
  destruct (N.eqb k k') eqn:E; cbn; [exact IH|rewrite E; exact IH].
Qed.
Lemma get_del_other : forall k k' m, k <> k' -> get k (del k' m) = get k m.
Proof.
  induction m as [|[j v] m IH]; intros H; cbn; [reflexivity|].
  destruct (N.eqb k' j) eqn:E; cbn.
  - apply N.eqb_eq in E as <-. destruct (N.eqb k k') eqn:E2; [apply N.eqb_eq in E2; contradiction|apply IH; exact H].
  - destruct (N.eqb k j); [reflexivity|apply IH; exact H].
Qed.
Lemma in_del : forall e k m, In e (del k m) <-> In e m /\ fst e <> k.
Proof.
  intros e k m. unfold del. rewrite filter_In, negb_true_iff, N.eqb_neq. intuition congruence.
Qed.
Lemma get_in : forall k m v, get k m = Some v -> In (k, v) m.
Proof.
  induction m as [|[k' w] m IH]; cbn; intros v; [discriminate|].
  destruct (N.eqb k k') eqn:E. { injection 1 as <-. apply N.eqb_eq in E as <-. left; reflexivity. }
  right. apply IH. exact H.
Qed.
Lemma holds_in : forall v m, holds v m = true <-> exists k, In (k, v) m.
Proof.
  intros v m. unfold holds. rewrite existsb_exists. split.
  - intros ([k w] & H & E). apply Nat.eqb_eq in E. cbn in E. subst w. exists k; exact H.
  - intros (k & H). exists (k, v). split; [exact H|apply Nat.eqb_refl].
Qed.

(** ** What each piece does to the operations *)
(** [objs_upd s s' P]: every operation of [s] is in [s'] too, changed as [P] says. *)
Lemma run_app : forall t1 t2 s, run s (t1 ++ t2) =
  let '(s1, o1) := run s t1 in let '(s2, o2) := run s1 t2 in (s2, o1 ++ o2).
Proof.
  induction t1 as [|e t1 IH]; intros t2 s; cbn [run app].
  - destruct (run s t2); reflexivity.
  - destruct (step s e) as [s1 o1]. rewrite IH. destruct (run s1 t1) as [s2 o2].
    destruct (run s2 t2) as [s3 o3]. rewrite app_assoc. reflexivity.
Qed.

(** ** C32: replies and executions *)
Definition execing (s : conn) (i : nat) : bool :=
  match nth_error (objs s) i with
  | Some o => match o_st o, o_kind o with Executing, Info => false | Executing, _ => true | _, _ => false end
  | None => false
  end.
Fixpoint final (i : nat) (w : bool) (l : list output) : bool :=
  match l with
  | [] => w
  | Started j _ _ :: l' => final i (if j =? i then true else w) l'
  | SentExec j _ _ :: l' | Stopped j :: l' => final i (if j =? i then false else w) l'
  | _ :: l' => final i w l'
  end.
Lemma answered_app : forall i a b w, answered i w (a ++ b) <-> answered i w a /\ answered i (final i w a) b.
Proof.
  induction a as [|x a IH]; intros b w; cbn [app answered final]. { tauto. }
  destruct x; try apply IH; destruct (_ =? i); rewrite ?IH; try tauto; apply IH.
Qed.
Lemma final_app : forall i a b w, final i w (a ++ b) = final i (final i w a) b.
Proof. induction a as [|x a IH]; intros b w; cbn [app final]; [reflexivity|]. destruct x; apply IH. Qed.
(** one piece of the worker keeps the account *)
Definition keeps (i : nat) (s : conn) (r : conn * list output) : Prop :=
  answered i (execing s i) (snd r) /\ final i (execing s i) (snd r) = execing (fst r) i.
Lemma keeps_seq : forall i s s1 o1 s2 o2, keeps i s (s1, o1) -> keeps i s1 (s2, o2) -> keeps i s (s2, o1 ++ o2).
Proof.
  unfold keeps; cbn [fst snd]. intros i s s1 o1 s2 o2 (A & B) (C & D).
  rewrite answered_app, final_app, B. tauto.
Qed.
(** pieces which change no execution *)
Definition silent (i : nat) (l : list output) : Prop := (forall w, answered i w l) /\ (forall w, final i w l = w).
Lemma keeps_silent : forall i s s' o, silent i o -> execing s' i = execing s i -> keeps i s (s', o).
Proof. intros i s s' o (A & B) E. split; cbn [fst snd]; [apply A|rewrite B; congruence]. Qed.
Lemma silent_nil : forall i, silent i [].
Proof. split; intros; reflexivity || exact I. Qed.
Lemma execing_set : forall s i j o o', nth_error (objs s) j = Some o ->
  execing (set_op j o' s) i =
  if i =? j then match o_st o', o_kind o' with Executing, Info => false | Executing, _ => true | _, _ => false end
  else execing s i.
Proof.
  intros s i j o o' H. unfold execing, set_op; cbn [objs]. rewrite (nth_upd _ _ _ _ _ _ H).
  destruct (i =? j); reflexivity.
Qed.
Lemma objs_chan_forget : forall c k s, objs (chan_forget c k s) = objs s.
Proof. intros. unfold chan_forget. destruct (nth_error (chans s) c); reflexivity. Qed.
Lemma objs_op_cleanup : forall i s, objs (fst (op_cleanup i s)) =
  match nth_error (objs s) i with
  | Some o => match o_st o with Dead => objs s | _ => upd i (dead o) (objs s) end
  | None => objs s
  end.
Proof.
  intros i s. unfold op_cleanup. destruct (nth_error (objs s) i) as [o|]; [|reflexivity].
  destruct (o_st o); cbn [fst set_ioids objs]; rewrite ?objs_chan_forget; reflexivity.
Qed.
Lemma execing_objs : forall s s' i, objs s = objs s' -> execing s i = execing s' i.
Proof. intros s s' i H. unfold execing. rewrite H. reflexivity. Qed.

Lemma keeps_op_cleanup : forall i j s, keeps i s (op_cleanup j s).
Proof.
  intros i j s. pose proof (objs_op_cleanup j s) as O. destruct (op_cleanup j s) as [s' o'] eqn:R.
  unfold op_cleanup in R. cbn [fst] in O.
  destruct (nth_error (objs s) j) as [o|] eqn:E;
    [|injection R as <- <-; apply keeps_silent; [apply silent_nil|reflexivity]].
  assert (X : o_st o <> Dead -> execing s' i = if i =? j then false else execing s i).
  { intros D. unfold execing. rewrite O. destruct (o_st o) eqn:S; try congruence; rewrite (nth_upd _ _ _ _ _ _ E);
      destruct (i =? j); reflexivity. }
  assert (Y : i = j -> execing s i = match o_st o, o_kind o with Executing, Info => false | Executing, _ => true | _, _ => false end).
  { intros ->. unfold execing. rewrite E. reflexivity. }
  destruct (o_st o) eqn:S; injection R as <- <-.
  1,2: apply keeps_silent; [destruct (o_close o); split; intros; reflexivity || exact I|].
  1,2: rewrite X by discriminate; destruct (Nat.eqb_spec i j) as [->|]; [symmetry; rewrite Y by reflexivity|]; reflexivity.
  2: apply keeps_silent; [apply silent_nil|reflexivity].
  split; cbn [fst snd app].
  - cbn [answered]. destruct (j =? i), (o_cancel o), (o_close o); cbn [answered app]; exact I.
  - rewrite X by discriminate. cbn [final]. rewrite (Nat.eqb_sym i j).
    destruct (j =? i), (o_cancel o), (o_close o); reflexivity.
Qed.
Lemma keeps_ops_cleanup : forall i l s, keeps i s (ops_cleanup l s).
Proof.
  induction l as [|[k j] l IH]; intros s; cbn [ops_cleanup].
  - apply keeps_silent; [apply silent_nil|reflexivity].
  - pose proof (keeps_op_cleanup i j s). destruct (op_cleanup j s) as [s1 o1].
    specialize (IH s1). destruct (ops_cleanup l s1). eapply keeps_seq; eassumption.
Qed.
Lemma keeps_chan_cleanup : forall i c s, keeps i s (chan_cleanup c s).
Proof.
  intros i c s. unfold chan_cleanup. destruct (nth_error (chans s) c) as [ch|];
    [|apply keeps_silent; [apply silent_nil|reflexivity]].
  destruct (c_open ch); [|apply keeps_silent; [apply silent_nil|reflexivity]].
  match goal with |- context [ops_cleanup ?l ?s0] => pose proof (keeps_ops_cleanup i l s0) as K; destruct (ops_cleanup l s0) as [s1 o1] end.
  eapply keeps_seq with (s1 := s1).
  - destruct K as (A & B). split; [exact A|exact B].
  - apply keeps_silent; [|reflexivity]. destruct (c_close ch); split; intros; reflexivity || exact I.
Qed.
Lemma keeps_chans_cleanup : forall i l s, keeps i s (chans_cleanup l s).
Proof.
  induction l as [|[k j] l IH]; intros s; cbn [chans_cleanup].
  - apply keeps_silent; [apply silent_nil|reflexivity].
  - pose proof (keeps_chan_cleanup i j s). destruct (chan_cleanup j s) as [s1 o1].
    specialize (IH s1). destruct (chans_cleanup l s1). eapply keeps_seq; eassumption.
Qed.
Lemma keeps_conn_cleanup : forall i s, keeps i s (conn_cleanup s).
Proof.
  intros i s. unfold conn_cleanup.
  match goal with |- context [ops_cleanup ?l ?s0] => pose proof (keeps_ops_cleanup i l s0) as K; destruct (ops_cleanup l s0) as [s1 o1] end.
  pose proof (keeps_chans_cleanup i (by_sid s) s1) as L. destruct (chans_cleanup (by_sid s) s1) as [s2 o2].
  change (Down :: o1 ++ o2) with ([Down] ++ (o1 ++ o2)).
  eapply keeps_seq with (s1 := s). { apply keeps_silent; [split; intros; reflexivity || exact I|reflexivity]. }
  eapply keeps_seq with (s1 := s1); [|exact L]. destruct K as (A & B); split; [exact A|exact B].
Qed.
Lemma keeps_gpr_reply : forall i j h v s, is_info j s = false -> keeps i s (gpr_reply j h v s).
Proof.
  intros i j h v s NI. unfold gpr_reply. assert (Z : keeps i s (s, [])) by (apply keeps_silent; [apply silent_nil|reflexivity]).
  destruct (nth_error (objs s) j) as [o|] eqn:E; [|exact Z].
  unfold is_info in NI; rewrite E in NI.
  destruct (_ && _); [|exact Z].
  assert (Y : i = j -> execing s i = match o_st o, o_kind o with Executing, Info => false | Executing, _ => true | _, _ => false end).
  { intros ->. unfold execing. rewrite E. reflexivity. }
  destruct (o_st o) eqn:S; try exact Z.
  - destruct v; (apply keeps_silent; [split; intros; reflexivity || exact I|]);
      rewrite (execing_set _ _ _ _ _ E); cbn [with_st o_st o_kind];
      destruct (Nat.eqb_spec i j) as [->|]; try reflexivity; symmetry; rewrite Y by reflexivity; reflexivity.
  - assert (W : forall st ok, st <> Executing -> keeps i s (set_op j (with_st st o) s, [SentExec j ok h])).
    { intros st ok D. split; cbn [fst snd answered final].
      - destruct (Nat.eqb_spec j i) as [<-|]; [|exact I]. split; [|exact I]. rewrite Y by reflexivity.
        destruct (o_kind o); congruence.
      - rewrite (execing_set _ _ _ _ _ E); cbn [with_st o_st o_kind]. rewrite Nat.eqb_sym.
        destruct (i =? j); destruct st; congruence. }
    destruct v as [r|]; [|apply W; discriminate].
    destruct (reply_ok o r); [|exact Z]. apply W. destruct (o_last o); discriminate.
Qed.
Lemma keeps_info_reply : forall i j ok s, is_info j s = true -> keeps i s (info_reply j ok s).
Proof.
  intros i j ok s NI. unfold info_reply. assert (Z : keeps i s (s, [])) by (apply keeps_silent; [apply silent_nil|reflexivity]).
  destruct (nth_error (objs s) j) as [o|] eqn:E; [|exact Z].
  unfold is_info in NI; rewrite E in NI.
  destruct (_ && _); [|exact Z].
  destruct (o_st o) eqn:S; try exact Z.
  apply keeps_silent; [split; intros; reflexivity || exact I|].
  unfold execing. rewrite objs_chan_forget. cbn [set_ioids objs set_op]. rewrite (nth_upd _ _ _ _ _ _ E).
  destruct (Nat.eqb_spec i j) as [->|]; [|reflexivity]. rewrite E, S. cbn. destruct (o_kind o); congruence.
Qed.
Lemma objs_add_op : forall o s, objs (add_op o s) = objs s ++ [o].
Proof. intros. unfold add_op. cbn zeta. destruct (nth_error (chans s) (o_chan o)); reflexivity. Qed.
Lemma execing_add : forall i o s, (o_st o = Executing -> o_kind o = Info) -> execing (add_op o s) i = execing s i.
Proof.
  intros i o s H. unfold execing. rewrite objs_add_op, nth_app_new.
  destruct (Nat.eqb_spec i (length (objs s))) as [->|]; [|reflexivity].
  rewrite (proj2 (nth_error_None (objs s) (length (objs s)))) by lia.
  destruct (o_st o), (o_kind o); try reflexivity; discriminate (H eq_refl).
Qed.
Lemma is_info_add : forall o s, is_info (length (objs s)) (add_op o s) = match o_kind o with Info => true | _ => false end.
Proof. intros. unfold is_info. rewrite objs_add_op, nth_app_new, Nat.eqb_refl. reflexivity. Qed.

Lemma keeps_init : forall i k sid ioid s, k <> Info -> keeps i s (init k sid ioid s).
Proof.
  intros i k sid ioid s NI. unfold init.
  destruct (get sid (by_sid s)) as [c|]; [|apply keeps_conn_cleanup].
  destruct (get ioid (by_ioid s)); [apply keeps_conn_cleanup|].
  assert (A : keeps i s (add_op (new_op k Creating c ioid) s, [Opened (length (objs s))])).
  { apply keeps_silent; [split; intros; reflexivity || exact I|]. apply execing_add; discriminate. }
  destruct k; try exact A.
  pose proof (keeps_gpr_reply i (length (objs s)) 0 (Some NoValue) (add_op (new_op Rpc Creating c ioid) s)) as K.
  rewrite is_info_add in K. specialize (K eq_refl).
  destruct (gpr_reply _ _ _ _) as [s2 o]. change (Opened (length (objs s)) :: o) with ([Opened (length (objs s))] ++ o).
  eapply keeps_seq; eassumption.
Qed.
Lemma keeps_get_field : forall i sid ioid s, keeps i s (get_field sid ioid s).
Proof.
  intros i sid ioid s. unfold get_field. assert (Z : keeps i s (s, [])) by (apply keeps_silent; [apply silent_nil|reflexivity]).
  destruct (get sid (by_sid s)) as [c|]; [|exact Z].
  destruct (get ioid (by_ioid s)); [exact Z|].
  assert (A : keeps i s (add_op (new_op Info Executing c ioid) s, [Opened (length (objs s))])).
  { apply keeps_silent; [split; intros; reflexivity || exact I|]. apply execing_add; reflexivity. }
  destruct (nth_error (chans s) c) as [ch|]; [|exact A]. destruct (c_onop ch); [exact A|].
  pose proof (keeps_info_reply i (length (objs s)) false (add_op (new_op Info Executing c ioid) s)) as K.
  rewrite is_info_add in K. specialize (K eq_refl).
  destruct (info_reply _ _ _) as [s2 o]. change (Opened (length (objs s)) :: o) with ([Opened (length (objs s))] ++ o).
  eapply keeps_seq; eassumption.
Qed.
Lemma keeps_exec : forall i k ioid w l s, keeps i s (exec k ioid w l s).
Proof.
  intros i k ioid w l s. unfold exec. assert (Z : keeps i s (s, [])) by (apply keeps_silent; [apply silent_nil|reflexivity]).
  destruct (get ioid (by_ioid s)) as [j|]; [|exact Z].
  destruct (nth_error (objs s) j) as [o|] eqn:E; [|exact Z].
  destruct (o_st o) eqn:S; [destruct (o_kind o); apply keeps_conn_cleanup| |
    destruct (o_kind o); try apply keeps_conn_cleanup;
      (destruct (match k with Rpc => _ | _ => _ end); [apply keeps_conn_cleanup|]; destruct (nth_error (chans s) (o_chan o)); exact Z)|exact Z].
  destruct (o_kind o) eqn:K; try apply keeps_conn_cleanup.
  all: destruct (match k with Rpc => _ | _ => _ end); [apply keeps_conn_cleanup|].
  all: destruct (nth_error (chans s) (o_chan o)) as [ch|]; [|exact Z].
  all: split; cbn [fst snd answered final].
  all: try (destruct (Nat.eqb_spec j i) as [<-|]; [split; [unfold execing; rewrite E, S; reflexivity|exact I]|exact I]).
  all: rewrite (execing_set _ _ _ _ _ E); cbn [o_st o_kind]; rewrite (Nat.eqb_sym i j); destruct (j =? i); reflexivity.
Qed.
Lemma keeps_cancel : forall i sid ioid s, keeps i s (cancel sid ioid s).
Proof.
  intros i sid ioid s. unfold cancel. assert (Z : keeps i s (s, [])) by (apply keeps_silent; [apply silent_nil|reflexivity]).
  destruct (get ioid (by_ioid s)) as [j|]; [|exact Z].
  destruct (nth_error (objs s) j) as [o|] eqn:E; [|exact Z].
  destruct (nth_error (chans s) (o_chan o)) as [ch|]; [|exact Z].
  destruct (_ && _); [|exact Z].
  destruct (o_st o) eqn:S; try exact Z.
  split; cbn [fst snd answered final].
  - destruct (j =? i), (o_cancel o); exact I.
  - rewrite (execing_set _ _ _ _ _ E); cbn [o_st with_st]. rewrite (Nat.eqb_sym i j). destruct (j =? i), (o_cancel o); reflexivity.
Qed.
Lemma keeps_objs : forall i s s0 r, objs s0 = objs s -> keeps i s0 r -> keeps i s r.
Proof. intros i s s0 [s' o] H K. unfold keeps in *. rewrite (execing_objs s s0 i) by congruence. exact K. Qed.
Lemma keeps_destroy_req : forall i sid ioid s, keeps i s (destroy_req sid ioid s).
Proof.
  intros i sid ioid s. unfold destroy_req. cbn zeta.
  destruct (get sid (by_sid s)) as [c|], (get ioid (by_ioid s)) as [j|].
  - eapply keeps_objs; [|apply keeps_op_cleanup]. cbn [set_ioids objs]. apply objs_chan_forget.
  - apply keeps_silent; [apply silent_nil|reflexivity].
  - eapply keeps_objs; [|apply keeps_op_cleanup]. reflexivity.
  - apply keeps_silent; [apply silent_nil|reflexivity].
Qed.
Lemma keeps_destroy_chan : forall i sid cid s, keeps i s (destroy_chan sid cid s).
Proof.
  intros. unfold destroy_chan. destruct (get sid (by_sid s)) as [c|]; [|apply keeps_silent; [apply silent_nil|reflexivity]].
  pose proof (keeps_chan_cleanup i c s). destruct (chan_cleanup c s) as [s1 o]. eapply keeps_seq; [eassumption|].
  apply keeps_silent; [split; intros; reflexivity || exact I|reflexivity].
Qed.
Lemma keeps_close_chan : forall i c s, keeps i s (close_chan c s).
Proof.
  intros. unfold close_chan. assert (Z : keeps i s (s, [])) by (apply keeps_silent; [apply silent_nil|reflexivity]).
  destruct (chan_alive s c); [|exact Z]. destruct (nth_error (chans s) c) as [ch|]; [|exact Z].
  pose proof (keeps_chan_cleanup i c s). destruct (chan_cleanup c s) as [s1 o]. eapply keeps_seq with (s1 := s); [|eassumption].
  apply keeps_silent; [|reflexivity]. destruct (up s && c_open ch); split; intros; reflexivity || exact I.
Qed.
Lemma is_info_set : forall s j o o', nth_error (objs s) j = Some o -> o_kind o' = o_kind o -> is_info j (set_op j o' s) = is_info j s.
Proof.
  intros s j o o' E K. unfold is_info, set_op; cbn [objs]. rewrite (nth_upd _ _ _ _ _ _ E), Nat.eqb_refl, E, K. reflexivity.
Qed.
Lemma keeps_connect : forall i j p m s, is_info j s = false -> keeps i s (connect j p m s).
Proof.
  intros i j p m s NI. unfold connect. assert (Z : keeps i s (s, [])) by (apply keeps_silent; [apply silent_nil|reflexivity]).
  destruct (nth_error (objs s) j) as [o|] eqn:E; [|exact Z]. destruct (alive s j o); [|exact Z].
  destruct (o_st o) eqn:S; try exact Z.
  assert (T : execing (set_op j (with_typed o) s) i = execing s i).
  { rewrite (execing_set _ _ _ _ _ E). cbn [with_typed o_st o_kind]. rewrite S.
    destruct (Nat.eqb_spec i j) as [->|]; [|reflexivity]. unfold execing. rewrite E, S. reflexivity. }
  assert (A : keeps i s (set_op j (with_typed o) s, [])) by (apply keeps_silent; [apply silent_nil|exact T]).
  assert (B : keeps i s (gpr_reply j 0 (Some NoValue) (set_op j (with_typed o) s))).
  { pose proof (keeps_gpr_reply i j 0 (Some NoValue) (set_op j (with_typed o) s)) as K.
    rewrite (is_info_set _ _ _ (with_typed o) E eq_refl) in K. specialize (K NI).
    destruct (gpr_reply _ _ _ _) as [s2 o2]. exact (keeps_seq _ _ _ _ _ _ A K). }
  assert (C : keeps i s (gpr_reply j 0 (Some NoValue) s)) by (apply keeps_gpr_reply; exact NI).
  destruct (o_kind o), p, (o_typed o), m; assumption.
Qed.
Lemma keeps_set_fn : forall i f out j s, (forall o, o_st (f o) = o_st o /\ o_kind (f o) = o_kind o) -> silent i out -> keeps i s (set_fn f out j s).
Proof.
  intros i f out j s F Q. unfold set_fn. assert (Z : keeps i s (s, [])) by (apply keeps_silent; [apply silent_nil|reflexivity]).
  destruct (nth_error (objs s) j) as [o|] eqn:E; [|exact Z]. destruct (alive s j o); [|exact Z].
  apply keeps_silent; [exact Q|]. rewrite (execing_set _ _ _ _ _ E). destruct (F o) as (-> & ->).
  destruct (Nat.eqb_spec i j) as [->|]; [|reflexivity]. unfold execing. rewrite E. reflexivity.
Qed.
Lemma keeps_create : forall i cid h s, keeps i s (create cid h s).
Proof.
  intros. unfold create. destruct (N.eqb _ _). { apply keeps_silent; [split; intros; reflexivity || exact I|reflexivity]. }
  destruct (fresh _ _) as [[sid nx]|]; [|apply keeps_silent; [apply silent_nil|reflexivity]].
  destruct h as [[[a b] c]|]; (apply keeps_silent; [split; intros; reflexivity || exact I|reflexivity]).
Qed.
Lemma keeps_step : forall i s e, keeps i s (step s e).
Proof.
  intros i s e. assert (Z : keeps i s (s, [])) by (apply keeps_silent; [apply silent_nil|reflexivity]).
  destruct e; cbn [step].
  - destruct (up s); [apply keeps_create|exact Z].
  - destruct (up s); [apply keeps_destroy_chan|exact Z].
  - apply keeps_close_chan.
  - destruct k; try exact Z; (destruct (up s); [apply keeps_init; discriminate|exact Z]).
  - destruct (is_info i0 s) eqn:NI; [exact Z|]. apply keeps_connect; exact NI.
  - destruct (nth_error (objs s) i0) as [o|] eqn:E; [|exact Z]. destruct (o_st o); try exact Z.
    destruct (o_kind o) eqn:K; try exact Z; (apply keeps_gpr_reply; unfold is_info; rewrite E, K; reflexivity).
  - apply keeps_set_fn; [split; reflexivity|apply silent_nil].
  - apply keeps_set_fn; [split; reflexivity|apply silent_nil].
  - apply keeps_set_fn; [split; reflexivity|split; intros; reflexivity || exact I].
  - apply keeps_set_fn; [split; reflexivity|apply silent_nil].
  - destruct k; try exact Z; (destruct (up s); [apply keeps_exec|exact Z]).
  - destruct (is_info i0 s) eqn:NI; [exact Z|]. apply keeps_gpr_reply; exact NI.
  - destruct (is_info i0 s) eqn:NI; [exact Z|]. apply keeps_gpr_reply; exact NI.
  - destruct (up s); [apply keeps_cancel|exact Z].
  - destruct (up s); [apply keeps_destroy_req|exact Z].
  - destruct (up s); [apply keeps_get_field|exact Z].
  - destruct (is_info i0 s) eqn:NI; [|exact Z]. apply keeps_info_reply; exact NI.
  - destruct (up s); [apply keeps_conn_cleanup|exact Z].
  - destruct (up s); [apply keeps_conn_cleanup|exact Z].
Qed.
Lemma keeps_run : forall i tr s, keeps i s (run s tr).
Proof.
  induction tr as [|e tr IH]; intros s; cbn [run]. { apply keeps_silent; [apply silent_nil|reflexivity]. }
  pose proof (keeps_step i s e). destruct (step s e) as [s1 o1]. specialize (IH s1). destruct (run s1 tr) as [s2 o2].
  eapply keeps_seq; eassumption.
Qed.
Lemma answered_count : forall i l w, answered i w l ->
  count (is_exec_reply i) l <= count (is_started i) l + (if w then 1 else 0).
Proof.
  unfold count. induction l as [|x l IH]; intros w H; cbn [filter length]; [lia|].
  destruct x; cbn [answered is_exec_reply is_started] in *; try (apply IH in H; exact H).
  - destruct (_ =? i); cbn [length]; [|apply IH; exact H]. destruct H as (-> & H). apply IH in H. lia.
  - destruct (_ =? i); cbn [length]; [|apply IH; exact H]. destruct H as (-> & H). apply IH in H. lia.
  - destruct (_ =? i); apply IH in H; destruct w; lia.
Qed.

(** ** After the connection is closed *)
Definition quiet (o : output) : bool :=
  match o with Stopped _ | CancelCb _ | CloseCb _ | ChanCloseCb _ => true | _ => false end.
Lemma quiet_op_cleanup : forall i s, forallb quiet (snd (op_cleanup i s)) = true.
Proof.
  intros i s. unfold op_cleanup. destruct (nth_error (objs s) i) as [o|]; [|reflexivity].
  destruct (o_st o), (o_cancel o), (o_close o); reflexivity.
Qed.
Lemma quiet_ops_cleanup : forall l s, forallb quiet (snd (ops_cleanup l s)) = true.
Proof.
  induction l as [|[k i] l IH]; intros s; cbn [ops_cleanup]; [reflexivity|].
  pose proof (quiet_op_cleanup i s). destruct (op_cleanup i s) as [s1 o1]. specialize (IH s1).
  destruct (ops_cleanup l s1) as [s2 o2]. cbn [snd] in *. rewrite forallb_app, H, IH. reflexivity.
Qed.
Lemma quiet_chan_cleanup : forall c s, forallb quiet (snd (chan_cleanup c s)) = true.
Proof.
  intros c s. unfold chan_cleanup. destruct (nth_error (chans s) c) as [ch|]; [|reflexivity].
  destruct (c_open ch); [|reflexivity].
  match goal with |- context [ops_cleanup ?l ?s0] => pose proof (quiet_ops_cleanup l s0) as K; destruct (ops_cleanup l s0) as [s1 o1] end.
  cbn [snd] in *. rewrite forallb_app, K. destruct (c_close ch); reflexivity.
Qed.
Lemma quiet_chans_cleanup : forall l s, forallb quiet (snd (chans_cleanup l s)) = true.
Proof.
  induction l as [|[k i] l IH]; intros s; cbn [chans_cleanup]; [reflexivity|].
  pose proof (quiet_chan_cleanup i s). destruct (chan_cleanup i s) as [s1 o1]. specialize (IH s1).
  destruct (chans_cleanup l s1) as [s2 o2]. cbn [snd] in *. rewrite forallb_app, H, IH. reflexivity.
Qed.
Lemma conn_cleanup_out : forall s, exists o, snd (conn_cleanup s) = Down :: o /\ forallb quiet o = true.
Proof.
  intros s. unfold conn_cleanup.
  match goal with |- context [ops_cleanup ?l ?s0] => pose proof (quiet_ops_cleanup l s0) as K; destruct (ops_cleanup l s0) as [s1 o1] end.
  pose proof (quiet_chans_cleanup (by_sid s) s1) as L. destruct (chans_cleanup (by_sid s) s1) as [s2 o2].
  exists (o1 ++ o2). cbn [snd] in *. split; [reflexivity|]. rewrite forallb_app, K, L. reflexivity.
Qed.

(** ** Cleaning only takes away *)
Record shr (s s' : conn) : Prop := {
  h_up : up s' = up s; h_next : next_sid s' = next_sid s; h_sid : by_sid s' = by_sid s;
  h_len : length (objs s') = length (objs s);
  h_obj : forall i o, nth_error (objs s) i = Some o ->
    exists o', nth_error (objs s') i = Some o' /\ (o' = o \/ (o_st o <> Dead /\ o' = dead o));
  h_ioid : forall k i, In (k, i) (by_ioid s') -> In (k, i) (by_ioid s);
  h_clen : length (chans s') = length (chans s);
  h_chan : forall c ch, nth_error (chans s) c = Some ch ->
    exists ch', nth_error (chans s') c = Some ch' /\ c_sid ch' = c_sid ch /\ c_cid ch' = c_cid ch /\
      (c_open ch' = true -> c_open ch = true) /\ c_onop ch' = c_onop ch /\ c_onrpc ch' = c_onrpc ch /\
      (forall k i, In (k, i) (c_ops ch') -> In (k, i) (c_ops ch))
}.
Lemma shr_refl : forall s, shr s s.
Proof. intros s; split; try reflexivity; auto. - intros i o H; exists o; auto. - intros c ch H; exists ch; repeat split; auto. Qed.
Lemma shr_trans : forall a b c, shr a b -> shr b c -> shr a c.
Proof.
  intros a b c A B. destruct A as [A1 A2 A3 A4 A5 A6 A7 A8], B as [B1 B2 B3 B4 B5 B6 B7 B8]. split; try congruence; auto.
  - intros i o H. apply A5 in H as (o1 & H & D). apply B5 in H as (o2 & H & D2). exists o2. split; [exact H|].
    destruct D as [->|(D & ->)]; [exact D2|]. destruct D2 as [->|(D2 & ->)]; [right; auto|]. exfalso; apply D2; reflexivity.
  - intros k ch H. apply A8 in H as (c1 & H & C1 & C2 & C3 & C4 & C5 & C6).
    apply B8 in H as (c2 & H & E1 & E2 & E3 & E4 & E5 & E6). exists c2.
    split; [exact H|]. repeat split; try congruence; auto.
Qed.
Lemma del_sub : forall k m e, In e (del k m) -> In e m.
Proof. intros k m e H. apply in_del in H as (H & _). exact H. Qed.
Lemma shr_chan_forget : forall c k s, shr s (chan_forget c k s).
Proof.
  intros c k s. unfold chan_forget. destruct (nth_error (chans s) c) as [ch|] eqn:E; [|apply shr_refl].
  split; try reflexivity; auto.
  - intros i o H; exists o; auto.
  - apply upd_length.
  - intros c' ch' H. cbn [set_chan chans]. rewrite (nth_upd _ _ _ _ _ _ E). destruct (Nat.eqb_spec c' c) as [->|].
    + eexists; split; [reflexivity|]. rewrite E in H. injection H as <-. cbn. repeat split; auto. intros; eapply del_sub; eassumption.
    + exists ch'. repeat split; auto.
Qed.
Lemma shr_set_ioids : forall m s, (forall e, In e m -> In e (by_ioid s)) -> shr s (set_ioids m s).
Proof.
  intros m s H. split; try reflexivity; auto.
  - intros i o E; exists o; auto.
  - intros c ch E; exists ch; repeat split; auto.
Qed.
Lemma shr_dead : forall i o s, nth_error (objs s) i = Some o -> o_st o <> Dead -> shr s (set_op i (dead o) s).
Proof.
  intros i o s E D. split; try reflexivity; auto.
  - apply upd_length.
  - intros j p H. cbn [set_op objs]. rewrite (nth_upd _ _ _ _ _ _ E). destruct (Nat.eqb_spec j i) as [->|].
    + rewrite E in H. injection H as <-. exists (dead o). auto.
    + exists p. auto.
  - intros c ch H; exists ch; repeat split; auto.
Qed.
Lemma shr_op_cleanup : forall i s, shr s (fst (op_cleanup i s)).
Proof.
  intros i s. unfold op_cleanup. destruct (nth_error (objs s) i) as [o|] eqn:E; [|apply shr_refl].
  assert (X : o_st o <> Dead -> shr s (set_ioids (del (o_ioid o) (by_ioid (chan_forget (o_chan o) (o_ioid o) (set_op i (dead o) s))))
     (chan_forget (o_chan o) (o_ioid o) (set_op i (dead o) s)))).
  { intros D. eapply shr_trans; [apply shr_dead; eassumption|]. eapply shr_trans; [apply shr_chan_forget|].
    apply shr_set_ioids. intros e. apply del_sub. }
  destruct (o_st o); cbn [fst]; (apply X; discriminate) || apply shr_refl.
Qed.
Lemma shr_ops_cleanup : forall l s, shr s (fst (ops_cleanup l s)).
Proof.
  induction l as [|[k i] l IH]; intros s; cbn [ops_cleanup]; [apply shr_refl|].
  pose proof (shr_op_cleanup i s). destruct (op_cleanup i s) as [s1 o1]. specialize (IH s1).
  destruct (ops_cleanup l s1) as [s2 o2]. cbn [fst] in *. eapply shr_trans; eassumption.
Qed.
Lemma shr_empty_chan : forall c ch s, nth_error (chans s) c = Some ch ->
  shr s (set_chan c {| c_sid := c_sid ch; c_cid := c_cid ch; c_open := false; c_ops := [];
                    c_onop := c_onop ch; c_onrpc := c_onrpc ch; c_close := false |} s).
Proof.
  intros c ch s E. split; try reflexivity; auto.
  - intros i o H; exists o; auto.
  - apply upd_length.
  - intros c' ch' H. cbn [set_chan chans]. rewrite (nth_upd _ _ _ _ _ _ E). destruct (Nat.eqb_spec c' c) as [->|].
    + eexists; split; [reflexivity|]. rewrite E in H. injection H as <-. cbn. repeat split; auto; [discriminate|intros ? ? []].
    + exists ch'. repeat split; auto.
Qed.
Lemma shr_chan_cleanup : forall c s, shr s (fst (chan_cleanup c s)).
Proof.
  intros c s. unfold chan_cleanup. destruct (nth_error (chans s) c) as [ch|] eqn:E; [|apply shr_refl].
  destruct (c_open ch); [|apply shr_refl].
  match goal with |- context [ops_cleanup ?l ?s0] => pose proof (shr_ops_cleanup l s0) as K; destruct (ops_cleanup l s0) as [s1 o1] end.
  cbn [fst] in *. eapply shr_trans; [apply shr_empty_chan; exact E|exact K].
Qed.
Lemma shr_chans_cleanup : forall l s, shr s (fst (chans_cleanup l s)).
Proof.
  induction l as [|[k i] l IH]; intros s; cbn [chans_cleanup]; [apply shr_refl|].
  pose proof (shr_chan_cleanup i s). destruct (chan_cleanup i s) as [s1 o1]. specialize (IH s1).
  destruct (chans_cleanup l s1) as [s2 o2]. cbn [fst] in *. eapply shr_trans; eassumption.
Qed.
Definition emptied (s : conn) : conn :=
  {| up := false; next_sid := next_sid s; by_sid := []; by_ioid := []; objs := objs s; chans := chans s |}.
Lemma shr_conn_cleanup : forall s, shr (emptied s) (fst (conn_cleanup s)).
Proof.
  intros s. unfold conn_cleanup. fold (emptied s). cbn zeta.
  pose proof (shr_ops_cleanup (by_ioid s) (emptied s)) as K. destruct (ops_cleanup (by_ioid s) (emptied s)) as [s1 o1].
  pose proof (shr_chans_cleanup (by_sid s) s1) as L. destruct (chans_cleanup (by_sid s) s1) as [s2 o2].
  cbn [fst] in *. eapply shr_trans; eassumption.
Qed.

(** ** The tables are consistent *)
Record W (s : conn) : Prop := {
  w_ioid : forall k i, In (k, i) (by_ioid s) -> exists o, nth_error (objs s) i = Some o /\ o_ioid o = k;
  w_ops : forall c ch k i, nth_error (chans s) c = Some ch -> In (k, i) (c_ops ch) ->
    exists o, nth_error (objs s) i = Some o /\ o_ioid o = k /\ o_chan o = c;
  w_sid : forall k c, In (k, c) (by_sid s) -> exists ch, nth_error (chans s) c = Some ch /\ c_sid ch = k;
  w_next : (next_sid s < W32)%N;
  w_down : up s = false -> by_sid s = [] /\ by_ioid s = []
}.
Lemma W_new : W new_conn.
Proof. split; cbn; try tauto; try discriminate; [intros c ch k i H; destruct c; discriminate|reflexivity]. Qed.
Lemma W_shr : forall s s', shr s s' -> W s -> W s'.
Proof.
  intros s s' [A1 A2 A3 A4 A5 A6 A7 A8] [B1 B2 B3 B4 B5]. split.
  - intros k i H. apply A6, B1 in H as (o & H & E). apply A5 in H as (o' & H & D). exists o'. split; [exact H|].
    destruct D as [->|(_ & ->)]; exact E.
  - intros c ch k i H I. assert (N : c < length (chans s)) by (rewrite <- A7; eapply nth_lt; exact H).
    apply nth_error_Some in N. destruct (nth_error (chans s) c) as [ch0|] eqn:E; [|congruence].
    destruct (A8 _ _ E) as (ch1 & H1 & _ & _ & _ & _ & _ & S). rewrite H in H1. injection H1 as <-.
    destruct (B2 _ _ _ _ E (S _ _ I)) as (o & Ho & X & Y). destruct (A5 _ _ Ho) as (o' & Ho' & D). exists o'.
    split; [exact Ho'|]. destruct D as [->|(_ & ->)]; auto.
  - rewrite A3. intros k c H. apply B3 in H as (ch & H & E). destruct (A8 _ _ H) as (ch' & H' & C & _). exists ch'. split; [exact H'|congruence].
  - rewrite A2. exact B4.
  - rewrite A1, A3. intros U. destruct (B5 U) as (E & F). split; [exact E|]. destruct (by_ioid s') as [|[k i] m]; [reflexivity|].
    specialize (A6 k i (or_introl eq_refl)). rewrite F in A6. destruct A6.
Qed.
Lemma W_emptied : forall s, W s -> W (emptied s).
Proof. intros s [B1 B2 B3 B4 B5]. split; cbn; tauto || exact B2. Qed.

Definition is_dead (s : conn) (i : nat) : Prop := exists o, nth_error (objs s) i = Some o /\ o_st o = Dead.
Definition live_in (s : conn) (i : nat) : bool := match nth_error (objs s) i with Some o => alive s i o | None => false end.
Definition stored (s : conn) (i : nat) : nat := match nth_error (objs s) i with Some o => if o_close o then 1 else 0 | None => 0 end.
Definition last_of (s : conn) (i : nat) : bool := match nth_error (objs s) i with Some o => o_last o | None => false end.
Definition gone (s : conn) (i : nat) : Prop := is_dead s i /\ live_in s i = false.

(** What a piece of the worker does to each operation, other than installing an onClose handler. *)
Record effect (s s' : conn) (l : list output) (i : nat) : Prop := {
  e_live : live_in s' i = true -> live_in s i = true \/ length (objs s) <= i;
  e_close : count (is_close i) l + stored s' i = stored s i;
  e_gone : 0 < count (is_close i) l -> gone s' i;
  e_dead : is_dead s i -> is_dead s' i;
  e_ends : is_dead s' i -> is_dead s i \/ ends_with_reply i l \/ last_of s i = true \/ (gone s' i /\ stored s' i = 0);
  e_last : last_of s' i = true -> last_of s i = true \/ exists h, In (Started i true h) l;
  e_set : ~ In (CloseSet i) l
}.
Definition piece (s : conn) (r : conn * list output) : Prop :=
  W s -> W (fst r) /\ length (objs s) <= length (objs (fst r)) /\ forall i, effect s (fst r) (snd r) i.
Lemma count_app : forall f a b, count f (a ++ b) = count f a + count f b.
Proof. intros. unfold count. rewrite filter_app, app_length. reflexivity. Qed.
Lemma ends_app_l : forall i a b, ends_with_reply i a -> ends_with_reply i (a ++ b).
Proof.
  intros i a b [H|[(ok & H)|(h & H)]]; [left|right; left; exists ok|right; right; exists h]; apply in_or_app; left; exact H.
Qed.
Lemma ends_app_r : forall i a b, ends_with_reply i b -> ends_with_reply i (a ++ b).
Proof.
  intros i a b [H|[(ok & H)|(h & H)]]; [left|right; left; exists ok|right; right; exists h]; apply in_or_app; right; exact H.
Qed.
Lemma gone_step : forall s s' l i, effect s s' l i -> i < length (objs s) -> gone s i -> gone s' i.
Proof.
  intros s s' l i E L (D & A). split; [apply (e_dead _ _ _ _ E); exact D|].
  destruct (live_in s' i) eqn:X; [|reflexivity]. destruct (e_live _ _ _ _ E X); [congruence|lia].
Qed.
Lemma is_dead_lt : forall s i, is_dead s i -> i < length (objs s).
Proof. intros s i (o & H & _). eapply nth_lt; exact H. Qed.
Lemma piece_seq : forall s s1 o1 s2 o2, piece s (s1, o1) -> piece s1 (s2, o2) -> piece s (s2, o1 ++ o2).
Proof.
  unfold piece; cbn [fst snd]. intros s s1 o1 s2 o2 P Q Hw.
  destruct (P Hw) as (W1 & L1 & E1). destruct (Q W1) as (W2 & L2 & E2). split; [exact W2|]. split; [lia|].
  intros i. specialize (E1 i). specialize (E2 i). pose proof (gone_step _ _ _ _ E2) as G.
  destruct E1 as [A1 A2 A3 A4 A5 A6 A7], E2 as [B1 B2 B3 B4 B5 B6 B7]. split.
  - intros H. apply B1 in H as [H|H]; [apply A1; exact H|right; lia].
  - rewrite count_app. lia.
  - rewrite count_app. intros H. destruct (Nat.eq_dec (count (is_close i) o2) 0) as [Z|Z]; [|apply B3; lia].
    assert (X : gone s1 i) by (apply A3; lia). apply G; [destruct X as (X & _); apply is_dead_lt; exact X|exact X].
  - auto.
  - intros H. apply B5 in H as [H|[H|[H|H]]].
    + apply A5 in H as [H|[H|[H|(H & Z)]]]; auto.
      * right; left. apply ends_app_l; exact H.
      * right; right; right. split; [apply G; [destruct H as (H & _); apply is_dead_lt; exact H|exact H]|lia].
    + right; left. apply ends_app_r; exact H.
    + apply A6 in H as [H|(h & H)]; [auto|]. right; left. right; right. exists h. apply in_or_app; left; exact H.
    + auto.
  - intros H. apply B6 in H as [H|(h & H)]; [|right; exists h; apply in_or_app; right; exact H].
    apply A6 in H as [H|(h & H)]; [auto|]. right; exists h; apply in_or_app; left; exact H.
  - intros H. apply in_app_or in H as [H|H]; contradiction.
Qed.
(** a piece which leaves the operations and the tables alone *)
Definition plain (o : output) : bool :=
  match o with SentCreate _ _ | Claimed _ _ | SentDestroy _ _ | ChanCloseCb _ | Opened _ | Down => true | _ => false end.
Lemma plain_close : forall i l, forallb plain l = true -> count (is_close i) l = 0.
Proof.
  intros i l H. unfold count. induction l as [|x l IH]; [reflexivity|]. cbn in H. apply andb_prop in H as (A & B).
  destruct x; try discriminate A; cbn; apply IH; exact B.
Qed.
Lemma plain_set : forall i l, forallb plain l = true -> ~ In (CloseSet i) l.
Proof. intros i l H I. rewrite forallb_forall in H. discriminate (H _ I). Qed.
Lemma effect_same : forall s s' l i, objs s' = objs s -> (live_in s' i = true -> live_in s i = true) ->
  forallb plain l = true -> effect s s' l i.
Proof.
  intros s s' l i O L P. unfold stored, last_of. split; unfold stored, last_of, gone, is_dead; rewrite ?O, ?plain_close by exact P; try tauto; try lia.
  - apply plain_set; exact P.
Qed.
Lemma piece_refl : forall s l, forallb plain l = true -> piece s (s, l).
Proof. intros s l P H. split; [exact H|]. split; [reflexivity|]. intros i. apply effect_same; auto. Qed.

Lemma live_shr : forall s s' i, shr s s' -> live_in s' i = true -> live_in s i = true.
Proof.
  intros s s' i [A1 A2 A3 A4 A5 A6 A7 A8] H. unfold live_in in *.
  destruct (nth_error (objs s') i) as [o'|] eqn:E; [|discriminate].
  assert (N : i < length (objs s)) by (rewrite <- A4; eapply nth_lt; exact E). apply nth_error_Some in N.
  destruct (nth_error (objs s) i) as [o|] eqn:E0; [|congruence].
  destruct (A5 _ _ E0) as (o1 & E1 & D). rewrite E in E1. injection E1 as <-.
  assert (C : o_chan o' = o_chan o) by (destruct D as [->|(_ & ->)]; reflexivity).
  unfold alive, chan_alive in *. rewrite C, A3 in H. apply orb_true_iff in H as [H|H]; apply orb_true_iff.
  - left. apply holds_in in H as (k & H). apply holds_in. exists k. auto.
  - right. apply andb_prop in H as (H1 & H2). rewrite H1.
    destruct (nth_error (chans s') (o_chan o)) as [ch'|] eqn:F; [|discriminate].
    assert (M : o_chan o < length (chans s)) by (rewrite <- A7; eapply nth_lt; exact F). apply nth_error_Some in M.
    destruct (nth_error (chans s) (o_chan o)) as [ch|] eqn:F0; [|congruence].
    destruct (A8 _ _ F0) as (c1 & F1 & _ & _ & _ & _ & _ & S). rewrite F in F1. injection F1 as <-.
    apply holds_in in H2 as (k & H2). apply holds_in. exists k. auto.
Qed.

Lemma piece_op_cleanup : forall j s, piece s (op_cleanup j s).
Proof.
  intros j s Hw. pose proof (shr_op_cleanup j s) as SH. pose proof (W_shr _ _ SH Hw) as W'.
  pose proof (objs_op_cleanup j s) as O. split; [exact W'|]. split; [rewrite (h_len _ _ SH); reflexivity|].
  destruct (op_cleanup j s) as [s' l] eqn:R. cbn [fst snd] in *. unfold op_cleanup in R.
  destruct (nth_error (objs s) j) as [o|] eqn:E; [|injection R as <- <-; intros; apply effect_same; auto].
  assert (X : o_st o <> Dead -> live_in s' j = false).
  { intros D. destruct (live_in s' j) eqn:LL; [exfalso|reflexivity]. unfold live_in in LL.
    assert (E' : nth_error (objs s') j = Some (dead o)).
    { rewrite O. destruct (o_st o); try congruence; apply upd_same; eapply nth_lt; exact E. }
    rewrite E' in LL. apply orb_true_iff in LL as [LL|LL].
    - apply holds_in in LL as (k & I). destruct (w_ioid _ W' _ _ I) as (o1 & Q & K). rewrite E' in Q. injection Q as <-.
      cbn in K. subst k. destruct (o_st o); try congruence; injection R as <- _; cbn [set_ioids by_ioid] in I; apply in_del in I as (_ & I); apply I; reflexivity.
    - apply andb_prop in LL as (_ & LL). cbn [dead o_chan] in LL.
      destruct (nth_error (chans s') (o_chan o)) as [ch|] eqn:C; [|discriminate].
      apply holds_in in LL as (k & I). destruct (w_ops _ W' _ _ _ _ C I) as (o1 & Q & K & _). rewrite E' in Q. injection Q as <-.
      cbn in K. subst k.
      assert (C2 : chans s' = chans (chan_forget (o_chan o) (o_ioid o) (set_op j (dead o) s))).
      { destruct (o_st o); try congruence; injection R as <- _; reflexivity. }
      rewrite C2 in C. unfold chan_forget in C. cbn [set_op chans] in C.
      destruct (nth_error (chans s) (o_chan o)) as [c0|] eqn:C0; cbn [set_op chans set_chan] in C; [|congruence].
      rewrite upd_same in C by (eapply nth_lt; exact C0). injection C as <-. cbn in I. apply in_del in I as (_ & I). apply I; reflexivity. }
  intros i. destruct (Nat.eqb_spec i j) as [->|N].
  - destruct (o_st o) eqn:S; [| | |injection R as <- <-; apply effect_same; auto].
    all: assert (E' : nth_error (objs s') j = Some (dead o)) by (rewrite O; apply upd_same; eapply nth_lt; exact E).
    all: assert (GN : gone s' j) by (split; [exists (dead o); split; [exact E'|reflexivity]|apply X; discriminate]).
    all: split.
    all: try (rewrite X by discriminate; discriminate).
    all: try (intros _; exact GN).
    all: try (intros _; destruct GN as (GN & _); exact GN).
    all: try (unfold last_of; rewrite E', E; auto).
    all: try (intros _; right; right; right; split; [exact GN|unfold stored; rewrite E'; reflexivity]).
    all: injection R as <- <-.
    1,3,5: unfold stored; rewrite E', E; cbn [o_close dead]; unfold count;
      destruct (o_close o), (o_cancel o); cbn; rewrite ?Nat.eqb_refl; reflexivity.
    all: destruct (o_close o), (o_cancel o); cbn; intuition discriminate.
  - assert (E' : nth_error (objs s') i = nth_error (objs s) i).
    { rewrite O. destruct (o_st o); try reflexivity; apply upd_other; congruence. }
    assert (L : forall P : output -> bool, (forall x, P x = true -> x = Stopped j \/ x = CancelCb j \/ x = CloseCb j -> False) -> filter P l = []).
    { intros P HP. assert (Q : forall x, In x l -> x = Stopped j \/ x = CancelCb j \/ x = CloseCb j).
      { destruct (o_st o); injection R as _ <-; intros x Hx; destruct (o_close o), (o_cancel o); cbn in Hx; intuition. }
      clear - HP Q. induction l as [|x l IH]; [reflexivity|]. cbn. destruct (P x) eqn:Px.
      - exfalso. eapply HP; [exact Px|apply Q; left; reflexivity].
      - apply IH. intros; apply Q; right; assumption. }
    assert (Z : count (is_close i) l = 0).
    { unfold count. rewrite L; [reflexivity|]. intros x Hx [-> | [-> | ->]]; try discriminate. cbn in Hx. apply Nat.eqb_eq in Hx. congruence. }
    split; unfold gone, is_dead, stored, last_of; rewrite ?E', ?Z; auto; try lia.
    + intros H. left. eapply live_shr; eassumption.
    + intros I. assert (F : In (CloseSet i) (filter (fun x => match x with CloseSet _ => true | _ => false end) l)) by (apply filter_In; auto).
      rewrite L in F; [destruct F|]. intros x Hx [-> | [-> | ->]]; discriminate.
Qed.
Lemma piece_ops_cleanup : forall l s, piece s (ops_cleanup l s).
Proof.
  induction l as [|[k i] l IH]; intros s; cbn [ops_cleanup]; [apply piece_refl; reflexivity|].
  pose proof (piece_op_cleanup i s). destruct (op_cleanup i s) as [s1 o1]. specialize (IH s1).
  destruct (ops_cleanup l s1) as [s2 o2]. eapply piece_seq; eassumption.
Qed.
Lemma piece_shr_same : forall s s' l, shr s s' -> objs s' = objs s -> forallb plain l = true -> piece s (s', l).
Proof.
  intros s s' l SH O P Hw. cbn [fst snd]. split; [eapply W_shr; eassumption|]. split; [rewrite O; reflexivity|].
  intros i. apply effect_same; auto. apply live_shr; exact SH.
Qed.
Lemma piece_chan_cleanup : forall c s, piece s (chan_cleanup c s).
Proof.
  intros c s. unfold chan_cleanup. destruct (nth_error (chans s) c) as [ch|] eqn:E; [|apply piece_refl; reflexivity].
  destruct (c_open ch); [|apply piece_refl; reflexivity].
  match goal with |- context [ops_cleanup ?l ?s0] => pose proof (piece_ops_cleanup l s0) as K; set (sc := s0) in *; destruct (ops_cleanup l sc) as [s1 o1] end.
  eapply piece_seq with (s1 := s1).
  - change o1 with ([] ++ o1). eapply piece_seq with (s1 := sc); [|exact K].
    apply piece_shr_same; [apply shr_empty_chan; exact E|reflexivity|reflexivity].
  - apply piece_refl. destruct (c_close ch); reflexivity.
Qed.
Lemma piece_chans_cleanup : forall l s, piece s (chans_cleanup l s).
Proof.
  induction l as [|[k i] l IH]; intros s; cbn [chans_cleanup]; [apply piece_refl; reflexivity|].
  pose proof (piece_chan_cleanup i s). destruct (chan_cleanup i s) as [s1 o1]. specialize (IH s1).
  destruct (chans_cleanup l s1) as [s2 o2]. eapply piece_seq; eassumption.
Qed.
Lemma live_emptied : forall s i, live_in (emptied s) i = false.
Proof. intros. unfold live_in. destruct (nth_error (objs (emptied s)) i); reflexivity. Qed.
Lemma piece_conn_cleanup : forall s, piece s (conn_cleanup s).
Proof.
  intros s. unfold conn_cleanup. fold (emptied s). cbn zeta.
  pose proof (piece_ops_cleanup (by_ioid s) (emptied s)) as K. destruct (ops_cleanup (by_ioid s) (emptied s)) as [s1 o1].
  pose proof (piece_chans_cleanup (by_sid s) s1) as L. destruct (chans_cleanup (by_sid s) s1) as [s2 o2].
  change (Down :: o1 ++ o2) with ([Down] ++ (o1 ++ o2)). eapply piece_seq with (s1 := emptied s); [|eapply piece_seq; eassumption].
  intros Hw. cbn [fst snd]. split; [apply W_emptied; exact Hw|]. split; [reflexivity|].
  intros i. apply effect_same; try reflexivity. rewrite live_emptied. discriminate.
Qed.
Definition calm (o : output) : bool := match o with CloseCb _ | CloseSet _ => false | _ => true end.
Lemma calm_close : forall i l, forallb calm l = true -> count (is_close i) l = 0 /\ ~ In (CloseSet i) l.
Proof.
  intros i l H. split.
  - unfold count. induction l as [|x l IH]; [reflexivity|]. cbn in H. apply andb_prop in H as (A & B).
    destruct x; try discriminate A; cbn; apply IH; exact B.
  - intros I. rewrite forallb_forall in H. discriminate (H _ I).
Qed.
Lemma W_set : forall s j o o', nth_error (objs s) j = Some o -> o_ioid o' = o_ioid o -> o_chan o' = o_chan o -> W s -> W (set_op j o' s).
Proof.
  intros s j o o' E I C [B1 B2 B3 B4 B5]. split; cbn [set_op by_ioid by_sid chans objs next_sid up]; auto.
  - intros k i H. destruct (B1 _ _ H) as (p & H1 & H2). rewrite (nth_upd _ _ _ _ _ _ E). destruct (Nat.eqb_spec i j) as [->|]; [|eauto].
    exists o'. split; [reflexivity|]. congruence.
  - intros c ch k i H K. destruct (B2 _ _ _ _ H K) as (p & H1 & H2 & H3). rewrite (nth_upd _ _ _ _ _ _ E).
    destruct (Nat.eqb_spec i j) as [->|]; [|eauto]. exists o'. split; [reflexivity|]. split; congruence.
Qed.
Lemma live_set : forall s j o o' i, nth_error (objs s) j = Some o -> o_chan o' = o_chan o -> live_in (set_op j o' s) i = live_in s i.
Proof.
  intros s j o o' i E C. unfold live_in, set_op; cbn [objs]. rewrite (nth_upd _ _ _ _ _ _ E).
  destruct (Nat.eqb_spec i j) as [->|]; [|destruct (nth_error (objs s) i); reflexivity].
  rewrite E. unfold alive, chan_alive; cbn [by_ioid by_sid chans]. rewrite C. reflexivity.
Qed.
Lemma piece_set : forall s j o o' l, nth_error (objs s) j = Some o ->
  o_ioid o' = o_ioid o -> o_chan o' = o_chan o -> o_close o' = o_close o -> forallb calm l = true ->
  (o_st o = Dead -> o_st o' = Dead) ->
  (o_st o' = Dead -> o_st o = Dead \/ ends_with_reply j l \/ o_last o = true) ->
  (o_last o' = true -> o_last o = true \/ exists h, In (Started j true h) l) ->
  piece s (set_op j o' s, l).
Proof.
  intros s j o o' l E I C K Q D1 D2 L Hw. cbn [fst snd]. split; [eapply W_set; eassumption|].
  split; [cbn; rewrite upd_length; reflexivity|]. intros i. destruct (calm_close i l Q) as (Q1 & Q2).
  split; try (rewrite (live_set _ _ _ _ _ E C)); rewrite ?Q1; auto; try lia.
  - unfold stored, set_op; cbn [objs]. rewrite (nth_upd _ _ _ _ _ _ E). destruct (Nat.eqb_spec i j) as [->|]; [|reflexivity].
    rewrite E, K. reflexivity.
  - intros (p & H1 & H2). unfold is_dead, set_op; cbn [objs]. rewrite (nth_upd _ _ _ _ _ _ E).
    destruct (Nat.eqb_spec i j) as [->|]; [|eauto]. rewrite E in H1. injection H1 as <-. exists o'; auto.
  - intros (p & H1 & H2). cbn [set_op objs] in H1. rewrite (nth_upd _ _ _ _ _ _ E) in H1.
    destruct (Nat.eqb_spec i j) as [->|]; [|left; exists p; auto]. injection H1 as <-.
    destruct (D2 H2) as [X|[X|X]]; [left; exists o; auto|auto|]. right; right; left. unfold last_of. rewrite E. exact X.
  - unfold last_of, set_op; cbn [objs]. rewrite (nth_upd _ _ _ _ _ _ E). destruct (Nat.eqb_spec i j) as [->|]; [|auto].
    rewrite E. exact L.
Qed.
Lemma piece_gpr_reply : forall j h v s, piece s (gpr_reply j h v s).
Proof.
  intros j h v s. unfold gpr_reply. assert (Z : piece s (s, [])) by (apply piece_refl; reflexivity).
  destruct (nth_error (objs s) j) as [o|] eqn:E; [|exact Z]. destruct (_ && _); [|exact Z].
  destruct (o_st o) eqn:S; try exact Z.
  - destruct v; (eapply piece_set; [exact E|reflexivity|reflexivity|reflexivity|reflexivity|congruence| |auto]); cbn [with_st o_st]; try discriminate.
    intros _. right; left. left; left; reflexivity.
  - destruct v as [r|]; [destruct (reply_ok o r); [|exact Z]|];
      (eapply piece_set; [exact E|reflexivity|reflexivity|reflexivity|reflexivity|congruence| |auto]); cbn [with_st o_st]; try discriminate.
    destruct (o_last o); [auto|discriminate].
Qed.
Lemma piece_info_reply : forall j ok s, piece s (info_reply j ok s).
Proof.
  intros j ok s. unfold info_reply. assert (Z : piece s (s, [])) by (apply piece_refl; reflexivity).
  destruct (nth_error (objs s) j) as [o|] eqn:E; [|exact Z]. destruct (_ && _); [|exact Z].
  destruct (o_st o) eqn:S; try exact Z. cbn zeta.
  change [SentInfo j ok] with ([SentInfo j ok] ++ []). eapply piece_seq with (s1 := set_op j (with_st Dead o) s).
  - eapply piece_set; [exact E|reflexivity|reflexivity|reflexivity|reflexivity|congruence| |auto]. cbn [with_st o_st].
    intros _. right; left. right; left. exists ok. left; reflexivity.
  - apply piece_shr_same; [|rewrite objs_chan_forget; reflexivity|reflexivity].
    eapply shr_trans; [|apply shr_chan_forget]. apply shr_set_ioids. intros e; apply del_sub.
Qed.
Lemma put_in : forall k v m e, In e (put k v m) -> e = (k, v) \/ In e m.
Proof. intros k v m e [<-|H]; [auto|right; eapply del_sub; exact H]. Qed.
Lemma W_add : forall o s, up s = true -> W s -> W (add_op o s).
Proof.
  intros o s U [B1 B2 B3 B4 B5].
  assert (N : forall i p, nth_error (objs s) i = Some p -> nth_error (objs s ++ [o]) i = Some p).
  { intros i p H. rewrite nth_error_app1; [exact H|eapply nth_lt; exact H]. }
  assert (M : nth_error (objs s ++ [o]) (length (objs s)) = Some o) by (rewrite nth_app_new, Nat.eqb_refl; reflexivity).
  assert (X : forall k i, In (k, i) (put (o_ioid o) (length (objs s)) (by_ioid s)) -> exists p, nth_error (objs s ++ [o]) i = Some p /\ o_ioid p = k).
  { intros k i H. apply put_in in H as [H|H]; [injection H as -> ->; exists o; auto|]. destruct (B1 _ _ H) as (p & H1 & H2). exists p. auto. }
  unfold add_op. cbn zeta. destruct (nth_error (chans s) (o_chan o)) as [ch|] eqn:C; split;
    cbn [set_chan up by_ioid by_sid objs chans next_sid]; try exact X; try exact B4; try exact B3; try congruence.
  - intros c ch' k i H I. rewrite (nth_upd _ _ _ _ _ _ C) in H. destruct (Nat.eqb_spec c (o_chan o)) as [->|].
    + injection H as <-. cbn in I. apply put_in in I as [I|I]; [injection I as -> ->; exists o; auto|].
      destruct (B2 _ _ _ _ C I) as (p & H1 & H2 & H3). exists p. auto.
    + destruct (B2 _ _ _ _ H I) as (p & H1 & H2 & H3). exists p. auto.
  - intros k c H. destruct (B3 _ _ H) as (ch' & H1 & H2). rewrite (nth_upd _ _ _ _ _ _ C). destruct (Nat.eqb_spec c (o_chan o)) as [->|].
    + rewrite C in H1. injection H1 as <-. eexists; split; [reflexivity|]. exact H2.
    + eauto.
  - intros c ch' k i H I. destruct (B2 _ _ _ _ H I) as (p & H1 & H2 & H3). exists p. auto.
Qed.
Lemma live_add : forall o s i, live_in (add_op o s) i = true -> live_in s i = true \/ length (objs s) <= i.
Proof.
  intros o s i H. destruct (Nat.lt_ge_cases i (length (objs s))) as [L|L]; [left|right; exact L].
  unfold live_in in *. rewrite objs_add_op, nth_error_app1 in H by exact L.
  destruct (nth_error (objs s) i) as [p|] eqn:E; [|discriminate]. unfold alive, chan_alive in *.
  apply orb_true_iff in H as [H|H]; apply orb_true_iff.
  - left. apply holds_in in H as (k & H). apply holds_in. exists k.
    assert (I : In (k, i) (put (o_ioid o) (length (objs s)) (by_ioid s))) by (unfold add_op in H; destruct (nth_error (chans s) (o_chan o)); exact H).
    apply put_in in I as [I|I]; [injection I as _ IE; lia|exact I].
  - right. apply andb_prop in H as (H1 & H2). assert (Hs : by_sid (add_op o s) = by_sid s) by (unfold add_op; destruct (nth_error (chans s) (o_chan o)); reflexivity).
    rewrite Hs in H1. rewrite H1. cbn [andb].
    unfold add_op in H2. cbn zeta in H2. destruct (nth_error (chans s) (o_chan o)) as [ch|] eqn:C; [|exact H2].
    cbn [set_chan chans] in H2. rewrite (nth_upd _ _ _ _ _ _ C) in H2. destruct (Nat.eqb_spec (o_chan p) (o_chan o)) as [->|]; [|exact H2].
    rewrite C. apply holds_in in H2 as (k & I). cbn in I. apply put_in in I as [I|I]; [injection I as _ IE; lia|].
    apply holds_in. exists k; exact I.
Qed.
Lemma piece_add : forall o s l, up s = true -> o_close o = false -> o_last o = false -> o_st o <> Dead -> forallb plain l = true ->
  piece s (add_op o s, l).
Proof.
  intros o s l U K Q D P Hw. cbn [fst snd]. split; [apply W_add; assumption|].
  split; [rewrite objs_add_op, app_length; lia|]. intros i.
  assert (N : nth_error (objs (add_op o s)) i = if i =? length (objs s) then Some o else nth_error (objs s) i) by (rewrite objs_add_op; apply nth_app_new).
  assert (M : i = length (objs s) -> nth_error (objs s) i = None) by (intros ->; apply nth_error_None; lia).
  split; unfold stored, last_of, is_dead; rewrite ?N, ?plain_close by exact P; try lia.
  - apply live_add.
  - destruct (Nat.eqb_spec i (length (objs s))) as [E|]; [rewrite M, K by exact E; reflexivity|reflexivity].
  - destruct (Nat.eqb_spec i (length (objs s))) as [E|]; [rewrite M by exact E|auto]. intros (p & H & _). discriminate.
  - destruct (Nat.eqb_spec i (length (objs s))) as [E|]; [|auto]. intros (p & H & X). injection H as <-. contradiction.
  - destruct (Nat.eqb_spec i (length (objs s))) as [E|]; [|auto]. congruence.
  - apply plain_set; exact P.
Qed.
Lemma piece_init : forall k sid ioid s, up s = true -> piece s (init k sid ioid s).
Proof.
  intros k sid ioid s U. unfold init. destruct (get sid (by_sid s)) as [c|]; [|apply piece_conn_cleanup].
  destruct (get ioid (by_ioid s)); [apply piece_conn_cleanup|]. cbn zeta.
  assert (A : piece s (add_op (new_op k Creating c ioid) s, [Opened (length (objs s))])).
  { apply piece_add; try reflexivity; [exact U|discriminate]. }
  destruct k; try exact A.
  pose proof (piece_gpr_reply (length (objs s)) 0 (Some NoValue) (add_op (new_op Rpc Creating c ioid) s)) as K.
  destruct (gpr_reply _ _ _ _) as [s2 o]. change (Opened (length (objs s)) :: o) with ([Opened (length (objs s))] ++ o).
  eapply piece_seq; eassumption.
Qed.
Lemma piece_get_field : forall sid ioid s, up s = true -> piece s (get_field sid ioid s).
Proof.
  intros sid ioid s U. unfold get_field. destruct (get sid (by_sid s)) as [c|]; [|apply piece_refl; reflexivity].
  destruct (get ioid (by_ioid s)); [apply piece_refl; reflexivity|]. cbn zeta.
  assert (A : piece s (add_op (new_op Info Executing c ioid) s, [Opened (length (objs s))])).
  { apply piece_add; try reflexivity; [exact U|discriminate]. }
  destruct (nth_error (chans s) c) as [ch|]; [|exact A]. destruct (c_onop ch); [exact A|].
  pose proof (piece_info_reply (length (objs s)) false (add_op (new_op Info Executing c ioid) s)) as K.
  destruct (info_reply _ _ _) as [s2 o]. change (Opened (length (objs s)) :: o) with ([Opened (length (objs s))] ++ o).
  eapply piece_seq; eassumption.
Qed.
Lemma piece_exec : forall k ioid w l s, piece s (exec k ioid w l s).
Proof.
  intros k ioid w l s. unfold exec. assert (Z : piece s (s, [])) by (apply piece_refl; reflexivity).
  destruct (get ioid (by_ioid s)) as [j|]; [|exact Z].
  destruct (nth_error (objs s) j) as [o|] eqn:E; [|exact Z].
  destruct (o_st o) eqn:S; [destruct (o_kind o); apply piece_conn_cleanup| |
    destruct (o_kind o); try apply piece_conn_cleanup;
      (destruct (match k with Rpc => _ | _ => _ end); [apply piece_conn_cleanup|]; destruct (nth_error (chans s) (o_chan o)); exact Z)|exact Z].
  destruct (o_kind o) eqn:K; try apply piece_conn_cleanup.
  all: destruct (match k with Rpc => _ | _ => _ end); [apply piece_conn_cleanup|].
  all: destruct (nth_error (chans s) (o_chan o)) as [ch|]; [|exact Z].
  all: eapply piece_set; [exact E|reflexivity|reflexivity|reflexivity|reflexivity|congruence|discriminate|].
  all: cbn [o_last]; intros H; right; eexists; rewrite H; left; reflexivity.
Qed.
Lemma piece_cancel : forall sid ioid s, piece s (cancel sid ioid s).
Proof.
  intros sid ioid s. unfold cancel. assert (Z : piece s (s, [])) by (apply piece_refl; reflexivity).
  destruct (get ioid (by_ioid s)) as [j|]; [|exact Z].
  destruct (nth_error (objs s) j) as [o|] eqn:E; [|exact Z].
  destruct (nth_error (chans s) (o_chan o)) as [ch|]; [|exact Z].
  destruct (_ && _); [|exact Z].
  destruct (o_st o) eqn:S; try exact Z.
  eapply piece_set; [exact E|reflexivity|reflexivity|reflexivity|destruct (o_cancel o); reflexivity|congruence|discriminate|auto].
Qed.
Lemma piece_destroy_req : forall sid ioid s, piece s (destroy_req sid ioid s).
Proof.
  intros sid ioid s. unfold destroy_req. cbn zeta.
  destruct (get sid (by_sid s)) as [c|], (get ioid (by_ioid s)) as [j|]; try (apply piece_refl; reflexivity).
  - match goal with |- context [op_cleanup j ?s0] => pose proof (piece_op_cleanup j s0) as K; set (sc := s0) in *; destruct (op_cleanup j sc) as [s1 o1] end.
    change o1 with ([] ++ o1). eapply piece_seq with (s1 := sc); [|exact K].
    apply piece_shr_same; [|unfold sc; cbn; apply objs_chan_forget|reflexivity].
    eapply shr_trans; [apply shr_chan_forget|]. apply shr_set_ioids. intros e; apply del_sub.
  - match goal with |- context [op_cleanup j ?s0] => pose proof (piece_op_cleanup j s0) as K; set (sc := s0) in *; destruct (op_cleanup j sc) as [s1 o1] end.
    change o1 with ([] ++ o1). eapply piece_seq with (s1 := sc); [|exact K].
    apply piece_shr_same; [|reflexivity|reflexivity]. apply shr_set_ioids. intros e; apply del_sub.
Qed.
Lemma piece_destroy_chan : forall sid cid s, piece s (destroy_chan sid cid s).
Proof.
  intros. unfold destroy_chan. destruct (get sid (by_sid s)) as [c|]; [|apply piece_refl; reflexivity].
  pose proof (piece_chan_cleanup c s). destruct (chan_cleanup c s) as [s1 o]. eapply piece_seq; [eassumption|].
  apply piece_refl; reflexivity.
Qed.
Lemma piece_close_chan : forall c s, piece s (close_chan c s).
Proof.
  intros. unfold close_chan. assert (Z : piece s (s, [])) by (apply piece_refl; reflexivity).
  destruct (chan_alive s c); [|exact Z]. destruct (nth_error (chans s) c) as [ch|]; [|exact Z].
  pose proof (piece_chan_cleanup c s). destruct (chan_cleanup c s) as [s1 o]. eapply piece_seq with (s1 := s); [|eassumption].
  apply piece_refl. destruct (up s && c_open ch); reflexivity.
Qed.
Lemma piece_connect : forall j p m s, piece s (connect j p m s).
Proof.
  intros j p m s. unfold connect. assert (Z : piece s (s, [])) by (apply piece_refl; reflexivity).
  destruct (nth_error (objs s) j) as [o|] eqn:E; [|exact Z]. destruct (alive s j o); [|exact Z].
  destruct (o_st o) eqn:S; try exact Z.
  assert (A : piece s (set_op j (with_typed o) s, [])).
  { eapply piece_set; [exact E|reflexivity|reflexivity|reflexivity|reflexivity|auto|auto|auto]. }
  assert (B : piece s (gpr_reply j 0 (Some NoValue) (set_op j (with_typed o) s))).
  { pose proof (piece_gpr_reply j 0 (Some NoValue) (set_op j (with_typed o) s)) as K.
    destruct (gpr_reply _ _ _ _) as [s2 o2]. exact (piece_seq _ _ _ _ _ A K). }
  assert (C : piece s (gpr_reply j 0 (Some NoValue) s)) by apply piece_gpr_reply.
  destruct (o_kind o), p, (o_typed o), m; assumption.
Qed.
Lemma piece_set_fn : forall f j s,
  (forall o, o_ioid (f o) = o_ioid o /\ o_chan (f o) = o_chan o /\ o_close (f o) = o_close o /\ o_st (f o) = o_st o /\ o_last (f o) = o_last o) ->
  piece s (set_fn f [] j s).
Proof.
  intros f j s F. unfold set_fn. assert (Z : piece s (s, [])) by (apply piece_refl; reflexivity).
  destruct (nth_error (objs s) j) as [o|] eqn:E; [|exact Z]. destruct (alive s j o); [|exact Z].
  destruct (F o) as (F1 & F2 & F3 & F4 & F5). eapply piece_set; [exact E|assumption|assumption|assumption|reflexivity|congruence| |]; rewrite ?F4, ?F5; auto.
Qed.
Lemma succ32_lt : forall x, (succ32 x < W32)%N.
Proof. intros; apply N.mod_lt; discriminate. Qed.
Lemma piece_create : forall cid h s, up s = true -> piece s (create cid h s).
Proof.
  intros cid h s U. unfold create. destruct (N.eqb _ _); [apply piece_refl; reflexivity|].
  destruct (fresh _ _) as [[sid nx]|] eqn:F; [|apply piece_refl; reflexivity].
  intros Hw. assert (NX : (nx < W32)%N).
  { unfold fresh in F. apply pick_spec in F as (_ & _ & ->); [apply succ32_lt|apply (w_next _ Hw)]. }
  destruct Hw as [B1 B2 B3 B4 B5]. destruct h as [[[a b] c]|]; cbn [fst snd].
  - split; [split; cbn [by_ioid by_sid objs chans next_sid up]; auto; try congruence|split; [reflexivity|]].
    + intros c' ch k i H I. rewrite nth_app_new in H. destruct (Nat.eqb_spec c' (length (chans s))) as [->|]; [injection H as <-; destruct I|eauto].
    + intros k c' H. apply put_in in H as [H|H].
      * injection H as -> ->. rewrite nth_app_new, Nat.eqb_refl. eexists; split; reflexivity.
      * apply B3 in H as (ch & H & E). exists ch. rewrite nth_app_new. destruct (Nat.eqb_spec c' (length (chans s))) as [->|]; [|auto].
        apply nth_lt in H. lia.
    + intros i. apply effect_same; try reflexivity. unfold live_in; cbn [objs].
      destruct (nth_error (objs s) i) as [o|] eqn:E; [|auto]. unfold alive, chan_alive; cbn [by_ioid by_sid chans].
      intros H. apply orb_true_iff in H as [H|H]; apply orb_true_iff; [auto|right].
      apply andb_prop in H as (H1 & H2). rewrite nth_app_new in H2. destruct (Nat.eqb_spec (o_chan o) (length (chans s))) as [Q|Q]; [discriminate|].
      rewrite H2, andb_true_r. apply holds_in in H1 as (k & I). apply put_in in I as [I|I]; [injection I as _ I; contradiction|]. apply holds_in. eauto.
  - split; [split; cbn [by_ioid by_sid objs chans next_sid up]; auto|split; [reflexivity|]].
    intros i. apply effect_same; reflexivity || auto.
Qed.
Lemma piece_step : forall s e, (forall i, e <> OnClose i) -> piece s (step s e).
Proof.
  intros s e NC. assert (Z : piece s (s, [])) by (apply piece_refl; reflexivity).
  destruct e; cbn [step].
  - destruct (up s) eqn:U; [apply piece_create; exact U|exact Z].
  - destruct (up s); [apply piece_destroy_chan|exact Z].
  - apply piece_close_chan.
  - destruct k; try exact Z; (destruct (up s) eqn:U; [apply piece_init; exact U|exact Z]).
  - destruct (is_info i s); [exact Z|apply piece_connect].
  - destruct (nth_error (objs s) i) as [o|]; [|exact Z]. destruct (o_st o); try exact Z. destruct (o_kind o); try exact Z; apply piece_gpr_reply.
  - apply piece_set_fn. repeat split.
  - apply piece_set_fn. repeat split.
  - exfalso. eapply NC; reflexivity.
  - apply piece_set_fn. repeat split.
  - destruct k; try exact Z; (destruct (up s); [apply piece_exec|exact Z]).
  - destruct (is_info i s); [exact Z|apply piece_gpr_reply].
  - destruct (is_info i s); [exact Z|apply piece_gpr_reply].
  - destruct (up s); [apply piece_cancel|exact Z].
  - destruct (up s); [apply piece_destroy_req|exact Z].
  - destruct (up s) eqn:U; [apply piece_get_field; exact U|exact Z].
  - destruct (is_info i s); [apply piece_info_reply|exact Z].
  - destruct (up s); [apply piece_conn_cleanup|exact Z].
  - destruct (up s); [apply piece_conn_cleanup|exact Z].
Qed.

(** ** C33: the account of onClose over a history *)
Record acct (s : conn) (l : list output) : Prop := {
  a_w : W s;
  a_cases : forall i,
    (count (is_close i) l = 0 /\ (In (CloseSet i) l <-> stored s i = 1)) \/
    (count (is_close i) l = 1 /\ In (CloseSet i) l /\ stored s i = 0 /\ gone s i);
  a_dead : forall i, is_dead s i -> ends_with_reply i l \/ (gone s i /\ stored s i = 0);
  a_last : forall i, last_of s i = true -> exists h, In (Started i true h) l
}.
Lemma stored_le : forall s i, stored s i <= 1.
Proof. intros. unfold stored. destruct (nth_error (objs s) i) as [o|]; [destruct (o_close o)|]; lia. Qed.
Lemma acct_new : acct new_conn [].
Proof.
  split.
  - apply W_new.
  - intros i. left. split; [reflexivity|]. unfold stored. cbn. destruct i; cbn; intuition discriminate.
  - intros i (o & H & _). destruct i; discriminate.
  - intros i H. unfold last_of in H. destruct i; discriminate.
Qed.
Lemma acct_step : forall s l e, acct s l -> acct (fst (step s e)) (l ++ snd (step s e)).
Proof.
  intros s l e A. assert (D : (exists i, e = OnClose i) \/ forall i, e <> OnClose i).
  { destruct e; try (right; congruence). left; eexists; reflexivity. }
  destruct D as [(j & ->)|NC].
  - cbn [step]. unfold set_fn. assert (Z : acct s (l ++ [])) by (rewrite app_nil_r; exact A).
    destruct (nth_error (objs s) j) as [o|] eqn:E; [|exact Z]. destruct (alive s j o) eqn:L; [|exact Z].
    destruct A as [W0 C DD LL]. cbn [fst snd].
    assert (ST : forall i, is_dead (set_op j (with_close o) s) i -> is_dead s i).
    { intros i (p & H1 & H2). unfold set_op in H1; cbn [objs] in H1. rewrite (nth_upd _ _ _ _ _ _ E) in H1.
      destruct (Nat.eqb_spec i j) as [->|]; [|exists p; auto]. injection H1 as <-. exists o; auto. }
    assert (SD : forall i, is_dead s i -> is_dead (set_op j (with_close o) s) i).
    { intros i (p & H1 & H2). unfold is_dead, set_op; cbn [objs]. rewrite (nth_upd _ _ _ _ _ _ E).
      destruct (Nat.eqb_spec i j) as [->|]; [|eauto]. rewrite E in H1; injection H1 as <-. exists (with_close o); auto. }
    assert (GO : forall i, gone s i -> i <> j).
    { intros i (_ & H) ->. unfold live_in in H. rewrite E in H. congruence. }
    assert (GS : forall i, gone s i -> gone (set_op j (with_close o) s) i).
    { intros i (H1 & H2). split; [apply SD; exact H1|]. rewrite (live_set _ _ _ _ _ E); [exact H2|reflexivity]. }
    assert (SO : forall i, i <> j -> stored (set_op j (with_close o) s) i = stored s i).
    { intros i N. unfold stored, set_op; cbn [objs]. rewrite upd_other by congruence. reflexivity. }
    assert (SJ : stored (set_op j (with_close o) s) j = 1).
    { unfold stored, set_op; cbn [objs]. rewrite upd_same by (eapply nth_lt; exact E). reflexivity. }
    assert (IN : forall i, i <> j -> (In (CloseSet i) (l ++ [CloseSet j]) <-> In (CloseSet i) l)).
    { intros i N. rewrite in_app_iff. cbn. intuition congruence. }
    split.
    + eapply W_set; [exact E|reflexivity|reflexivity|exact W0].
    + intros i. rewrite count_app. cbn [count filter is_close length]. rewrite Nat.add_0_r.
      destruct (Nat.eq_dec i j) as [->|N].
      * destruct (C j) as [(C1 & C2)|(C1 & C2 & C3 & C4)]; [|exfalso; exact (GO _ C4 eq_refl)].
        left. split; [exact C1|]. rewrite SJ. split; [reflexivity|intros _; apply in_or_app; right; left; reflexivity].
      * rewrite (SO _ N), (IN _ N). destruct (C i) as [(C1 & C2)|(C1 & C2 & C3 & C4)]; [left; auto|right; auto].
    + intros i H. apply ST in H. destruct (DD _ H) as [H1|(H1 & H2)]; [left; apply ends_app_l; exact H1|].
      right. split; [apply GS; exact H1|]. rewrite SO by (apply GO; exact H1). exact H2.
    + intros i H. unfold last_of, set_op in H; cbn [objs] in H. rewrite (nth_upd _ _ _ _ _ _ E) in H.
      assert (last_of s i = true) as X.
      { unfold last_of. destruct (Nat.eqb_spec i j) as [EQ|]; [rewrite EQ, E; exact H|exact H]. }
      apply LL in X as (h & X). exists h. apply in_or_app; left; exact X.
  - destruct A as [W0 C DD LL]. destruct (piece_step s e NC W0) as (W1 & LE & EF).
    destruct (step s e) as [s' o]. cbn [fst snd] in *. split; [exact W1|..].
    + intros i. specialize (EF i). pose proof (gone_step _ _ _ _ EF) as G. destruct EF as [E1 E2 E3 E4 E5 E6 E7].
      rewrite count_app. pose proof (stored_le s i) as S1.
      assert (IN : In (CloseSet i) (l ++ o) <-> In (CloseSet i) l) by (rewrite in_app_iff; tauto).
      rewrite IN. destruct (C i) as [(C1 & C2)|(C1 & C2 & C3 & C4)].
      * destruct (Nat.eq_dec (count (is_close i) o) 0) as [Z|Z].
        -- left. split; [lia|]. rewrite C2. split; intros; lia.
        -- right. split; [lia|]. split; [apply C2; lia|]. split; [lia|]. apply E3; lia.
      * right. split; [lia|]. split; [exact C2|]. split; [lia|]. apply G; [|exact C4]. destruct C4 as (C4 & _); apply is_dead_lt; exact C4.
    + intros i H. specialize (EF i). pose proof (gone_step _ _ _ _ EF) as G. destruct EF as [E1 E2 E3 E4 E5 E6 E7].
      apply E5 in H as [H|[H|[H|H]]].
      * destruct (DD _ H) as [X|(X & Y)]; [left; apply ends_app_l; exact X|].
        right. split; [apply G; [apply is_dead_lt; exact H|exact X]|lia].
      * left. apply ends_app_r; exact H.
      * left. right; right. destruct (LL _ H) as (h & X). exists h. apply in_or_app; left; exact X.
      * right; exact H.
    + intros i H. specialize (EF i). apply (e_last _ _ _ _ EF) in H as [H|(h & H)].
      * destruct (LL _ H) as (h & X). exists h. apply in_or_app; left; exact X.
      * exists h. apply in_or_app; right; exact H.
Qed.
Lemma acct_run : forall tr s l, acct s l -> acct (fst (run s tr)) (l ++ snd (run s tr)).
Proof.
  induction tr as [|e tr IH]; intros s l A; cbn [run]; [rewrite app_nil_r; exact A|].
  pose proof (acct_step s l e A) as B. destruct (step s e) as [s1 o1]. cbn [fst snd] in B. specialize (IH _ _ B).
  destruct (run s1 tr) as [s2 o2]. cbn [fst snd] in *. rewrite app_assoc. exact IH.
Qed.
Lemma acct_reach : forall tr, acct (fst (run new_conn tr)) (snd (run new_conn tr)).
Proof. intros tr. exact (acct_run tr new_conn [] acct_new). Qed.
