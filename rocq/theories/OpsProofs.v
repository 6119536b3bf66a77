(** Operations on the database: what they call. *)
From Coq Require Import String ZArith List Bool Lia.
From Verif Require Import Base BaseProofs WireModel TypeModel TextModel ValueModel MarkModel CopyModel NtModel GroupModel OpsModel OpsSpec.
Import ListNotations.
Local Open Scope Z_scope.

(** [post x Q]: what [x] adds, given the calls before *)
Definition post {A} (x : op A) (Q : list act -> list act -> list assignment -> eres A -> Prop) : Prop :=
  forall s s' r, x s = (s', r) ->
    exists d v, s_acts s' = s_acts s ++ d /\ s_val s' = s_val s ++ v /\ Q (s_acts s) d v r.
Lemma post_imp {A} (x : op A) (Q Q' : list act -> list act -> list assignment -> eres A -> Prop) :
  post x Q -> (forall h d v r, Q h d v r -> Q' h d v r) -> post x Q'.
Proof. intros H I s s' r E. destruct (H s s' r E) as (d & v & E1 & E2 & E3). exists d, v. auto. Qed.
Lemma post_ret {A} (a : A) (Q : list act -> list act -> list assignment -> eres A -> Prop) :
  (forall h, Q h [] [] (EOk a)) -> post (ret a) Q.
Proof. intros H s s' r E. unfold ret in E. inversion E; subst. exists [], []. rewrite !app_nil_r. auto. Qed.
Lemma post_throw {A} e (Q : list act -> list act -> list assignment -> eres A -> Prop) :
  (forall h, Q h [] [] (EErr e)) -> post (throw e) Q.
Proof. intros H s s' r E. unfold throw in E. inversion E; subst. exists [], []. rewrite !app_nil_r. auto. Qed.
Lemma post_undefined {A} (Q : list act -> list act -> list assignment -> eres A -> Prop) :
  (forall h, Q h [] [] EUB) -> post undefined Q.
Proof. intros H s s' r E. unfold undefined in E. inversion E; subst. exists [], []. rewrite !app_nil_r. auto. Qed.
Definition lift_err {A B} (r : eres A) : eres B := match r with EOk _ => EUB | EErr e => EErr e | EUB => EUB end.
Definition is_ok {A} (r : eres A) : Prop := exists a, r = EOk a.
Lemma post_bind {A B} (x : op A) (k : A -> op B) Q1 (Q2 : A -> list act -> list act -> list assignment -> eres B -> Prop)
      (Q : list act -> list act -> list assignment -> eres B -> Prop) :
  post x Q1 -> (forall a, post (k a) (Q2 a)) ->
  (forall h d v r, Q1 h d v r -> ~ is_ok r -> Q h d v (lift_err r)) ->
  (forall h d1 v1 a d2 v2 r, Q1 h d1 v1 (EOk a) -> Q2 a (h ++ d1) d2 v2 r -> Q h (d1 ++ d2) (v1 ++ v2) r) ->
  post (bind x k) Q.
Proof.
  intros Hx Hk Herr Hok s s' r E. unfold bind in E. destruct (x s) as (s1 & r1) eqn:E1.
  destruct (Hx s s1 r1 E1) as (d1 & v1 & A1 & A2 & A3).
  destruct r1 as [a | e |].
  - destruct (Hk a s1 s' r E) as (d2 & v2 & B1 & B2 & B3).
    exists (d1 ++ d2), (v1 ++ v2). rewrite B1, B2, A1, A2, <- !app_assoc. split; [reflexivity|split; [reflexivity|]].
    apply (Hok _ _ _ a); [exact A3|]. rewrite <- A1. exact B3.
  - inversion E; subst. exists d1, v1. split; [auto|split; [auto|]].
    change (EErr e) with (@lift_err A B (EErr e)). apply Herr; [exact A3|]. intros (a & Ha). discriminate.
  - inversion E; subst. exists d1, v1. split; [auto|split; [auto|]].
    change EUB with (@lift_err A B EUB). apply Herr; [exact A3|]. intros (a & Ha). discriminate.
Qed.
Lemma post_emit a (Q : list act -> list act -> list assignment -> eres unit -> Prop) :
  (forall h, Q h [a] [] (EOk tt)) -> post (emit a) Q.
Proof. intros H s s' r E. unfold emit in E. inversion E; subst. exists [a], []. cbn [s_acts s_val]. rewrite app_nil_r. auto. Qed.
Lemma post_assign p v (Q : list act -> list act -> list assignment -> eres unit -> Prop) :
  (forall h, Q h [] [(p, v)] (EOk tt)) -> post (assign p v) Q.
Proof. intros H s s' r E. unfold assign in E. inversion E; subst. exists [], [(p, v)]. cbn [s_acts s_val]. rewrite app_nil_r. auto. Qed.
Lemma post_call {A} a (ans : list act -> option A) (Q : list act -> list act -> list assignment -> eres A -> Prop) :
  (forall h, Q h [a] [] (match ans h with Some x => EOk x | None => EErr FDb end)) -> post (call a ans) Q.
Proof. intros H s s' r E. unfold call in E. inversion E; subst. exists [a], []. cbn [s_acts s_val]. rewrite app_nil_r. auto. Qed.
Lemma post_ask {A} (f : list act -> A) (Q : list act -> list act -> list assignment -> eres A -> Prop) :
  (forall h, Q h [] [] (EOk (f h))) -> post (ask f) Q.
Proof. intros H s s' r E. unfold ask in E. inversion E; subst. exists [], []. rewrite !app_nil_r. auto. Qed.
Lemma post_lock {A} rs (x : op A) Q1 (Q : list act -> list act -> list assignment -> eres A -> Prop) :
  post x Q1 -> (forall h d v r, Q1 (h ++ [ALock rs]) d v r -> Q h (ALock rs :: d ++ [AUnlock rs]) v r) -> post (with_lock rs x) Q.
Proof.
  intros Hx H s s' r E. unfold with_lock in E.
  destruct (x {| s_acts := s_acts s ++ [ALock rs]; s_val := s_val s |}) as (s1 & r1) eqn:E1. inversion E; subst.
  destruct (Hx _ _ _ E1) as (d & v & A1 & A2 & A3). cbn [s_acts s_val] in *.
  exists (ALock rs :: d ++ [AUnlock rs]), v. split; [rewrite A1, <- !app_assoc; reflexivity|]. split; [exact A2|].
  apply H. exact A3.
Qed.

(** ** Calls made under a condition *)
Lemma during_nil h P : during h [] P.
Proof. intros pre a po E. destruct pre; discriminate. Qed.
Lemma during_app h d1 d2 P : during h d1 P -> during (h ++ d1) d2 P -> during h (d1 ++ d2) P.
Proof.
  intros H1 H2 pre a po E. apply app_eq_app in E. destruct E as (l & [(-> & E) | (-> & E)]).
  - destruct l as [|y l]; cbn in E.
    + subst. specialize (H2 [] a po eq_refl). rewrite !app_nil_r in H2. exact H2.
    + inversion E; subst. apply (H1 pre y l eq_refl).
  - rewrite app_assoc. apply (H2 l a po E).
Qed.
Lemma during_one h a (P : list act -> act -> Prop) : P h a -> during h [a] P.
Proof. intros H [|x pre] b po E; inversion E; subst. { rewrite app_nil_r. exact H. } destruct pre; discriminate. Qed.
Lemma during_imp h d (P P' : list act -> act -> Prop) : (forall pre a, (exists po, d = pre ++ a :: po) -> P (h ++ pre) a -> P' (h ++ pre) a) -> during h d P -> during h d P'.
Proof. intros I H pre a po E. apply I; [exists po; exact E|]. eapply H, E. Qed.
Lemma during_in h d P a : during h d P -> In a d -> exists pre, P (h ++ pre) a.
Proof. intros H I. apply in_split in I. destruct I as (pre & po & ->). exists pre. eapply H. reflexivity. Qed.

(** all calls of [x] satisfy [P] *)
Definition calls {A} (P : list act -> act -> Prop) (x : op A) : Prop := post x (fun h d _ _ => during h d P).
Lemma calls_ret {A} (P : list act -> act -> Prop) (a : A) : calls P (ret a).
Proof. apply post_ret. intros. apply during_nil. Qed.
Lemma calls_throw {A} (P : list act -> act -> Prop) e : calls P (@throw A e).
Proof. apply post_throw. intros. apply during_nil. Qed.
Lemma calls_undefined {A} (P : list act -> act -> Prop) : calls P (@undefined A).
Proof. apply post_undefined. intros. apply during_nil. Qed.
Lemma calls_bind {A B} P (x : op A) (k : A -> op B) : calls P x -> (forall a, calls P (k a)) -> calls P (bind x k).
Proof.
  intros Hx Hk. apply (post_bind x k _ (fun _ h d _ _ => during h d P) _ Hx Hk); [auto|]. cbn. intros. apply during_app; assumption.
Qed.
Lemma calls_seq {A B} P (x : op A) (y : op B) : calls P x -> calls P y -> calls P (seq x y).
Proof. intros. apply calls_bind; auto. Qed.
Lemma calls_emit (P : list act -> act -> Prop) a : (forall h, P h a) -> calls P (emit a).
Proof. intros H. apply post_emit. intros. apply during_one, H. Qed.
Lemma calls_assign (P : list act -> act -> Prop) p v : calls P (assign p v).
Proof. apply post_assign. intros. apply during_nil. Qed.
Lemma calls_call {A} (P : list act -> act -> Prop) a (ans : list act -> option A) : (forall h, P h a) -> calls P (call a ans).
Proof. intros H. apply post_call. intros. apply during_one, H. Qed.
Lemma calls_ask {A} (P : list act -> act -> Prop) (f : list act -> A) : calls P (ask f).
Proof. apply post_ask. intros. apply during_nil. Qed.
Lemma calls_each {A} (P : list act -> act -> Prop) (f : A -> op unit) l : (forall x, In x l -> calls P (f x)) -> calls P (each f l).
Proof.
  induction l as [|x l IH]; intros H; cbn [each]; [apply calls_ret|].
  apply calls_seq; [apply H; left; reflexivity|apply IH; intros y Hy; apply H; right; exact Hy].
Qed.
Lemma calls_imp {A} (P P' : list act -> act -> Prop) (x : op A) : (forall h a, P h a -> P' h a) -> calls P x -> calls P' x.
Proof. intros I H. eapply post_imp; [exact H|]. cbn. intros h d v r Hd. eapply during_imp; [|exact Hd]. auto. Qed.
Lemma calls_and {A} (P P' : list act -> act -> Prop) (x : op A) : calls P x -> calls P' x -> calls (fun h a => P h a /\ P' h a) x.
Proof.
  intros H H' s s' r E. destruct (H s s' r E) as (d & v & E1 & E2 & D). destruct (H' s s' r E) as (d' & v' & E1' & E2' & D').
  assert (d' = d) as -> by (apply (app_inv_head (s_acts s)); rewrite <- E1, <- E1'; reflexivity).
  exists d, v. split; [exact E1|split; [exact E2|]]. intros pre a po Ed. split; [eapply D|eapply D']; exact Ed.
Qed.
Definition no_lock (a : act) : Prop := match a with ALock _ | AUnlock _ => False | _ => True end.
Definition is_lock (a : act) : Prop := match a with ALock _ | AUnlock _ => True | _ => False end.
Lemma held_lock h rs mid r : In r rs -> Forall no_lock mid -> held (h ++ ALock rs :: mid) r.
Proof.
  intros I F. exists h, rs, mid. split; [reflexivity|split; [exact I|]]. intros X. rewrite Forall_forall in F. exact (F _ X).
Qed.
(** inside a lock: [P] may rely on the records being locked *)
Lemma calls_lock {A} (P : list act -> act -> Prop) rs (x : op A) :
  (forall h a, is_lock a -> P h a) ->
  calls (fun h a => no_lock a /\ ((forall r, In r rs -> held h r) -> P h a)) x -> calls P (with_lock rs x).
Proof.
  intros HL Hx. eapply post_lock; [exact Hx|]. cbn. intros h d v r D.
  assert (F : Forall no_lock d).
  { apply Forall_forall. intros a I. destruct (during_in _ _ _ _ D I) as (pre & N & _). exact N. }
  change (ALock rs :: d ++ [AUnlock rs]) with ([ALock rs] ++ d ++ [AUnlock rs]).
  apply during_app; [apply during_one, HL; exact I|]. apply during_app; [|apply during_one, HL; exact I].
  eapply during_imp; [|exact D]. cbn. intros pre a (po & Ed) (N & H). apply H. intros r0 I.
  rewrite <- app_assoc. apply held_lock; [exact I|]. subst d. apply Forall_app in F. apply F.
Qed.

(** ** What the functions call *)
Ltac calls_tac :=
  repeat match goal with
         | |- calls _ (ret _) => apply calls_ret
         | |- calls _ (throw _) => apply calls_throw
         | |- calls _ undefined => apply calls_undefined
         | |- calls _ (assign _ _) => apply calls_assign
         | |- calls _ (ask _) => apply calls_ask
         | |- calls _ (seq _ _) => apply calls_seq
         | |- calls _ (bind _ _) => apply calls_bind; [|intro]
         | |- calls _ (set _ _ _ _) => unfold set
         | |- calls _ (set_if _ _ _ _) => unfold set_if
         | |- calls _ (if ?c then _ else _) => destruct c
         | |- calls _ (match ?c with _ => _ end) => destruct c
         | |- calls _ (let _ := _ in _) => cbv zeta
         | |- calls _ (call _ _) => apply calls_call
         | |- calls _ (emit _) => apply calls_emit
         end.
Definition reads (ch : str) (h : list act) (a : act) : Prop := a = ARead ch.
Lemma calls_initialize (P : list act -> act -> Prop) w t c ch node : calls P (initialize w t c ch node).
Proof. unfold initialize. calls_tac. Qed.
Lemma calls_get_scalar fp w c ch code dst : calls (reads ch) (get_scalar fp w c ch code dst).
Proof. unfold get_scalar. calls_tac; intros; reflexivity. Qed.
Lemma calls_get_array w c ch code dst : calls (reads ch) (get_array w c ch code dst).
Proof. unfold get_array. calls_tac; intros; reflexivity. Qed.
Lemma calls_get_time_alarm w ms ch mask al node : calls (reads ch) (get_time_alarm w ms ch mask al node).
Proof. unfold get_time_alarm. calls_tac; intros; reflexivity. Qed.
Lemma calls_get_properties w ms ch node : calls (reads ch) (get_properties w ms ch node).
Proof. unfold get_properties. calls_tac; intros; reflexivity. Qed.
Lemma calls_ioc_get fp w t cval any mask x ch oc node : calls (reads ch) (ioc_get fp w t cval any mask x ch oc node).
Proof.
  unfold ioc_get. destruct t; calls_tac;
    first [apply calls_get_properties | apply calls_get_time_alarm | apply calls_get_scalar | apply calls_get_array].
Qed.
Lemma calls_ioc_get_none fp w t cval any mask x ch node P : calls P (ioc_get fp w t cval any mask x ch None node).
Proof. unfold ioc_get. destruct t; calls_tac. Qed.
Definition writes (ch : str) (h : list act) (a : act) : Prop := exists d, a = AWrite ch d.
Lemma calls_as_number (P : list act -> act -> Prop) fp p wt : calls P (as_number fp p wt).
Proof. unfold as_number. calls_tac. Qed.
Lemma calls_db_put w ch d : calls (writes ch) (db_put w ch d).
Proof. unfold db_put. calls_tac. intros. exists d. reflexivity. Qed.
Lemma calls_ioc_put fp w t cval c ch v node : calls (writes ch) (ioc_put fp w t cval c ch v node).
Proof.
  unfold ioc_put, put_scalar, put_long_string, put_string_array, put_array. destruct t; calls_tac;
    first [apply calls_db_put | apply calls_as_number].
Qed.
Lemma calls_pre (P : list act -> act -> Prop) w c ch : calls P (pre_processing w c ch).
Proof. unfold pre_processing. calls_tac. Qed.
Definition processes (r : nat) (h : list act) (a : act) : Prop := a = AProcess r \/ a = AReprocess r.
Lemma calls_post w c ch force : calls (processes (ch_record c)) (post_processing w c ch force).
Proof. unfold post_processing. calls_tac; intros; [right|left]; reflexivity. Qed.
Lemma calls_field_pre (P : list act -> act -> Prop) w s : calls P (field_pre_processing w s).
Proof. unfold field_pre_processing. calls_tac. Qed.

(** a write of [x] is made right after the check which is made before [x] *)
Lemma allowed_iff w h ch cr : can_write w h (Some (ch, cr)) = true <-> allowed w h ch cr.
Proof. unfold can_write, allowed. rewrite existsb_exists. reflexivity. Qed.
