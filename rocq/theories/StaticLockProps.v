(** C113: adding, removing and closing the PVs of a StaticSource ends. *)
From Coq Require Import List Bool Arith Lia.
From Verif Require Import StaticLockModel StaticLockProofs.
Import ListNotations.

(** All threads have done all they had to do, and the worker too. *)
Definition all_done (s : st) : Prop := (forall t x, nth_error (todo s) t = Some x -> snd x = []) /\ jobs s = [] /\ inside s = None.
(** Nobody can go on. *)
Definition stuck (s : st) : Prop := forall e, step s e = None.
(** The callbacks for closed channels. *)
Definition callbacks (u : use) : list job := match u with URemove js | UClose js => js | _ => [] end.
(** No callback, for a channel closed here or by a client, adds or removes PVs. *)
Definition mild (us : list (list use)) (rq : list job) : Prop :=
  (forall l u j, In l us -> In u l -> In j (callbacks u) -> ~ In QWrite j) /\ (forall j, In j rq -> ~ In QWrite j).
(** Nobody closes a whole source. *)
Definition only_remove (us : list (list use)) : Prop := forall l js, In l us -> ~ In (UClose js) l.

(** However many threads add, remove, look up and close PVs, of however many channels, and whatever the worker has to do meanwhile, in any order: they all
    come to an end, if callbacks do not add or remove PVs, or if StaticSource::close() is not used. *)
Theorem C113_ends_partial : forall us rq, mild us rq \/ only_remove us ->
  exists bound, forall es s, run (init us rq) es = Some s -> length es <= bound /\ (stuck s -> all_done s).
Proof.
  intros us rq H. exists (weight (init us rq)). intros es s R. destruct (run_inv es _ _ (inv_init us rq) R) as (I & L & T & B). split; [lia|]. intro S.
  assert (TB : tame s \/ brief s).
  { destruct H as [(M1 & M2)|O].
    - left. apply T. split; cbn [init todo jobs].
      + apply Forall_forall. intros x X. apply in_map_iff in X. destruct X as (l & <- & X). cbn [snd]. apply Forall_forall. intros a A. apply in_flat_map in A. destruct A as (u & U & A).
        specialize (M1 l u). destruct u as [|js|js|]; cbn [actions callbacks] in *.
        * repeat (destruct A as [<-|A]; [exact Logic.I|]). easy.
        * repeat (destruct A as [<-|A]; [exact Logic.I|]). apply in_map_iff in A. destruct A as (j & <- & J). exact (M1 j X U J).
        * destruct A as [<-|A]; [exact Logic.I|]. apply in_app_iff in A. destruct A as [A|[<-|[]]]; [|exact Logic.I]. apply in_map_iff in A. destruct A as (j & <- & J). exact (M1 j X U J).
        * repeat (destruct A as [<-|A]; [exact Logic.I|]). easy.
      + apply Forall_forall. intros x X. apply in_map_iff in X. destruct X as (j & <- & X). exact (M2 j X).
    - right. apply B. unfold brief. cbn [init todo]. apply Forall_forall. intros x X. apply in_map_iff in X. destruct X as (l & <- & X). cbn [snd]. specialize (O l).
      assert (NC : forall js, ~ In (UClose js) l) by (intro js; now apply O). clear O X.
      assert (G : short (flat_map actions l) /\ rd (flat_map actions l) = false); [|exact (proj1 G)].
      induction l as [|u l IH]; [cbn; auto|]. destruct IH as (G1 & G2); [intros js Q; apply (NC js); now right|].
      assert (CC : forall js, short (map Call js ++ flat_map actions l) /\ rd (map Call js ++ flat_map actions l) = false).
      { induction js as [|j js IH]; cbn; [auto|]. destruct IH. auto. }
      destruct u as [|js|js|]; cbn [flat_map actions app short rd]; auto.
      + split; [|reflexivity]. apply CC.
      + elim (NC js). now left. }
  destruct (progress s I TB) as [D|(e & s' & E)]; [exact D|]. rewrite (S e) in E. discriminate.
Qed.

(** StaticSource::close() of a PV whose SharedPV::onLastDisconnect() removes it from the source: the thread has the lock and waits for the worker, the
    worker waits for the lock, forever. *)
Theorem C113_callback_refuted : exists s, run (init [[UClose [[QWrite]]]] []) [Thread 0; Thread 0] = Some s /\ stuck s /\ ~ all_done s.
Proof.
  eexists. split; [reflexivity|]. split; [|intros (_ & H & _); discriminate]. intros [[|[|t]]|]; reflexivity.
Qed.
(** The same if, meanwhile, the last client of another PV leaves. *)
Theorem C113_leaving_refuted : exists s, run (init [[UClose [[]]]] [[QWrite]]) [Thread 0; Thread 0] = Some s /\ stuck s /\ ~ all_done s.
Proof.
  eexists. split; [reflexivity|]. split; [|intros (_ & H & _); discriminate]. intros [[|[|t]]|]; reflexivity.
Qed.
(** remove() does this well: the same callback, and all are done *)
Example C113_example : only_remove [[UAdd; URemove [[QWrite]; [QRead]]]; [URemove []; ULook]] /\ mild [[UAdd; UClose [[QRead]; []]]; [ULook; URemove [[]]]] [[QRead]] /\
  option_map (fun s => (todo s, jobs s)) (run (init [[URemove [[QWrite]]]] []) [Thread 0; Thread 0; Thread 0; Work; Work; Work]) = Some ([(false, [])], []).
Proof.
  split; [|split].
  - intros l js [<-|[<-|[]]] H; repeat (destruct H as [H|H]; [discriminate H|]); exact H.
  - split.
    + intros l u j [<-|[<-|[]]] U J; repeat (destruct U as [<-|U]; [cbn in J; repeat (destruct J as [<-|J]; [intro Q; repeat (destruct Q as [Q|Q]; [discriminate Q|]); exact Q|]); easy|]); easy.
    + intros j [<-|[]] Q. repeat (destruct Q as [Q|Q]; [discriminate Q|]). exact Q.
  - reflexivity.
Qed.

Print Assumptions C113_ends_partial.
Print Assumptions C113_callback_refuted.
Print Assumptions C113_leaving_refuted.
