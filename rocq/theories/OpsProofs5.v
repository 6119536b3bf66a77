(** GET of a group: what it calls, and that it shows one moment. *)
From Coq Require Import String ZArith List Bool Lia.
From Verif Require Import Base BaseProofs WireModel TypeModel TextModel ValueModel MarkModel CopyModel NtModel GroupModel OpsModel OpsSpec
  OpsProofs OpsProofs2 OpsProofs3 OpsProofs4.
Import ListNotations.
Local Open Scope Z_scope.

(** ** Calls *)
Definition peek (fields : list cfield) (h : list act) (a : act) : Prop :=
  ~ changes a /\ under_lock fields h a.
Lemma calls_get_field (P : list act -> act -> Prop) fp w f :
  (forall h c, cf_chan f = Some c -> P h (ARead (chan_name f))) -> calls P (get_field fp w f).
Proof.
  intros HP. unfold get_field. apply calls_seq.
  - destruct (cf_chan f); [apply calls_initialize|apply calls_ret].
  - unfold read_field. destruct (cf_chan f) as [c|].
    + eapply calls_imp; [|apply calls_ioc_get]. intros h a E. rewrite E. eapply HP. reflexivity.
    + apply calls_ioc_get_none.
Qed.
Lemma calls_read_field (P : list act -> act -> Prop) fp w x f :
  (forall h c, cf_chan f = Some c -> P h (ARead (chan_name f))) -> calls P (read_field fp w x f).
Proof.
  intros HP. unfold read_field. destruct (cf_chan f) as [c|].
  - eapply calls_imp; [|apply calls_ioc_get]. intros h a E. rewrite E. eapply HP. reflexivity.
  - apply calls_ioc_get_none.
Qed.
Lemma in_records l f c : In f l -> cf_chan f = Some c -> In (ch_record c) (records_of l).
Proof. intros I E. unfold records_of. apply in_flat_map. exists f. split; [exact I|]. rewrite E. left. reflexivity. Qed.
Lemma peek_locked fields rs f h :
  In f fields -> (forall c, cf_chan f = Some c -> In (ch_record c) rs) ->
  forall c, cf_chan f = Some c -> no_lock (ARead (chan_name f)) /\ ((forall r, In r rs -> held h r) -> peek fields h (ARead (chan_name f))).
Proof.
  intros I Hr c E. split; [exact Logic.I|]. intros Hh. split; [intros []|]. exists f, c.
  split; [exact I|split; [exact E|split; [reflexivity|]]]. apply Hh, Hr, E.
Qed.
Lemma peek_lock fields h a : is_lock a -> peek fields h a.
Proof. destruct a; try contradiction; intros _; (split; [intros []|exact I]). Qed.
Lemma calls_get_group fp w g opt : calls (peek (g_fields g)) (get_group fp w g opt).
Proof.
  unfold get_group. apply calls_seq; [apply calls_assign|]. destruct (atomic_of g opt).
  - apply calls_lock; [apply peek_lock|]. apply calls_each. intros f I.
    assert (C : calls (fun h a => no_lock a /\ ((forall r, In r (records_of (g_fields g)) -> held h r) -> peek (g_fields g) h a)) (get_field fp w f)).
    { apply calls_get_field. intros h c E. apply (peek_locked _ _ f h I) with (c := c); [|exact E]. intros c' E'. eapply in_records; eassumption. }
    destruct (ftype f); try exact C; apply calls_ret.
  - apply calls_each. intros f I. destruct (cf_chan f) as [c|] eqn:E; [|apply calls_ret].
    assert (C : calls (peek (g_fields g)) (with_lock [ch_record c] (get_field fp w f))).
    { apply calls_lock; [apply peek_lock|]. apply calls_get_field. intros h c' E'. apply (peek_locked _ _ f h I) with (c := c'); [|exact E'].
      intros c'' E''. rewrite E in E''. inversion E''; subst. left. reflexivity. }
    destruct (ftype f); try exact C; apply calls_ret.
Qed.

(** ** The same in two databases, while [I] holds of the calls *)
Definition same {A} (I : list act -> Prop) (x y : op A) : Prop :=
  forall s, I (s_acts s) -> x s = y s /\ I (s_acts (fst (x s))).
Lemma same_refl_quiet {A} (I : list act -> Prop) (x : op A) : (forall s, s_acts (fst (x s)) = s_acts s) -> same I x x.
Proof. intros H s Is. split; [reflexivity|]. rewrite H. exact Is. Qed.
Lemma same_ret {A} I (a : A) : same I (ret a) (ret a).
Proof. apply same_refl_quiet. reflexivity. Qed.
Lemma same_throw {A} I e : same I (@throw A e) (throw e).
Proof. apply same_refl_quiet. reflexivity. Qed.
Lemma same_undefined {A} I : same I (@undefined A) undefined.
Proof. apply same_refl_quiet. reflexivity. Qed.
Lemma same_assign I p v : same I (assign p v) (assign p v).
Proof. apply same_refl_quiet. reflexivity. Qed.
Lemma same_bind {A B} I (x y : op A) (k k' : A -> op B) : same I x y -> (forall a, same I (k a) (k' a)) -> same I (bind x k) (bind y k').
Proof.
  intros Hx Hk s Is. destruct (Hx s Is) as (E & Is'). unfold bind. rewrite <- E. destruct (x s) as (s1 & [a | e |]); cbn [fst] in Is'.
  - apply Hk, Is'.
  - split; [reflexivity|exact Is'].
  - split; [reflexivity|exact Is'].
Qed.
Lemma same_seq {A B} I (x y : op A) (k k' : op B) : same I x y -> same I k k' -> same I (seq x k) (seq y k').
Proof. intros. apply same_bind; auto. Qed.
Lemma same_each {A} I (f g : A -> op unit) l : (forall x, In x l -> same I (f x) (g x)) -> same I (each f l) (each g l).
Proof.
  induction l as [|x l IH]; intros H; cbn [each]; [apply same_ret|].
  apply same_seq; [apply H; left; reflexivity|]. apply IH. intros y Hy. apply H. right. exact Hy.
Qed.
Lemma same_call {A} (I : list act -> Prop) a (f g : list act -> option A) :
  (forall h, I h -> f h = g h) -> (forall h, I h -> I (h ++ [a])) -> same I (call a f) (call a g).
Proof. intros H H' s Is. unfold call. rewrite (H _ Is). split; [reflexivity|]. cbn. apply H', Is. Qed.

(** ** Under a lock *)
Definition is_read (a : act) : Prop := match a with ARead _ => True | _ => False end.
Definition inside (h0 : list act) (rs : list nat) (h : list act) : Prop :=
  exists mid, h = h0 ++ ALock rs :: mid /\ Forall is_read mid.
Lemma inside_held h0 rs h r : inside h0 rs h -> In r rs -> held h r.
Proof.
  intros (mid & -> & F) I. exists h0, rs, mid. split; [reflexivity|split; [exact I|]]. intros X. rewrite Forall_forall in F. exact (F _ X).
Qed.
Lemma inside_read h0 rs h ch : inside h0 rs h -> inside h0 rs (h ++ [ARead ch]).
Proof.
  intros (mid & -> & F). exists (mid ++ [ARead ch]). split; [rewrite <- app_assoc; reflexivity|].
  apply Forall_app. split; [exact F|]. constructor; [exact I|constructor].
Qed.
Lemma same_at_trans a b c ch : same_at a b ch -> same_at b c ch -> same_at a c ch.
Proof. intros (A1 & A2 & A3) (B1 & B2 & B3). unfold same_at. rewrite A1, A2, A3. auto. Qed.
Lemma inside_same rec hist h0 rs h ch :
  locks_work rec hist -> In (rec ch) rs -> inside h0 rs h -> same_at (hist h) (hist (h0 ++ [ALock rs])) ch.
Proof.
  intros L I (mid & -> & F). induction mid as [|a mid IH] using rev_ind; [split; [|split]; reflexivity|].
  apply Forall_app in F. destruct F as (F & Fa). inversion Fa as [|? ? Ha _]; subst.
  eapply same_at_trans; [|apply IH, F].
  assert (H1 : held (h0 ++ ALock rs :: mid) (rec ch)) by (eapply inside_held; [exists mid; split; [reflexivity|exact F]|exact I]).
  assert (H2 : held ((h0 ++ ALock rs :: mid) ++ [a]) (rec ch)).
  { rewrite <- app_assoc. eapply inside_held; [exists (mid ++ [a]); split; [reflexivity|apply Forall_app; split; assumption]|exact I]. }
  assert (N : ~ changes a) by (destruct a; try contradiction; intros []).
  destruct (L _ a ch H1 H2 N) as (E1 & E2 & E3). rewrite <- app_assoc in E1, E2, E3. cbn [app] in *. unfold same_at. rewrite E1, E2, E3. auto.
Qed.

Section Frozen.
  Variables (fp : fpu) (w : world) (rec : str -> nat) (hist : list act -> moment).
  Hypotheses (Hs : seen w hist) (Hl : locks_work rec hist).
  Variables (h0 : list act) (rs : list nat).
  Let m := hist (h0 ++ [ALock rs]).
  Let I := inside h0 rs.
  Lemma same_value ch : In (rec ch) rs -> same I (call (ARead ch) (fun h => w_value w h ch)) (call (ARead ch) (fun h => w_value (frozen w m) h ch)).
  Proof.
    intros Hc. apply same_call; [|intros; apply inside_read; assumption]. intros h Ih. destruct (Hs h ch) as (_ & _ & ->).
    cbn [frozen w_value]. apply (inside_same rec hist h0 rs h ch Hl Hc Ih).
  Qed.
  Lemma same_meta ch : In (rec ch) rs -> same I (call (ARead ch) (fun h => w_meta w h ch)) (call (ARead ch) (fun h => w_meta (frozen w m) h ch)).
  Proof.
    intros Hc. apply same_call; [|intros; apply inside_read; assumption]. intros h Ih. destruct (Hs h ch) as (-> & _ & _).
    cbn [frozen w_meta]. apply (inside_same rec hist h0 rs h ch Hl Hc Ih).
  Qed.
  Lemma same_props ch : In (rec ch) rs -> same I (call (ARead ch) (fun h => w_props w h ch)) (call (ARead ch) (fun h => w_props (frozen w m) h ch)).
  Proof.
    intros Hc. apply same_call; [|intros; apply inside_read; assumption]. intros h Ih. destruct (Hs h ch) as (_ & -> & _).
    cbn [frozen w_props]. apply (inside_same rec hist h0 rs h ch Hl Hc Ih).
  Qed.
  Ltac same_tac :=
    repeat match goal with
           | |- same _ (ret _) (ret _) => apply same_ret
           | |- same _ (throw _) (throw _) => apply same_throw
           | |- same _ undefined undefined => apply same_undefined
           | |- same _ (assign _ _) (assign _ _) => apply same_assign
           | |- same _ (seq _ _) (seq _ _) => apply same_seq
           | |- same _ (bind _ _) (bind _ _) => apply same_bind; [|intro]
           | |- same _ (set _ _ _ _) (set _ _ _ _) => unfold set
           | |- same _ (set_if _ _ _ _) (set_if _ _ _ _) => unfold set_if
           | |- same _ (if ?c then _ else _) (if ?c then _ else _) => destruct c
           | |- same _ (match ?c with _ => _ end) (match ?c with _ => _ end) => destruct c
           end.
  Lemma same_initialize t c ch node : same I (initialize w t c ch node) (initialize (frozen w m) t c ch node).
  Proof. unfold initialize. cbv zeta. cbn [frozen w_attr]. same_tac. Qed.
  Lemma same_get_scalar c ch code dst : In (rec ch) rs -> same I (get_scalar fp w c ch code dst) (get_scalar fp (frozen w m) c ch code dst).
  Proof. intros Hc. unfold get_scalar. apply same_bind; [apply same_value, Hc|]. intros r. same_tac. Qed.
  Lemma same_get_array c ch code dst : In (rec ch) rs -> same I (get_array w c ch code dst) (get_array (frozen w m) c ch code dst).
  Proof. intros Hc. unfold get_array. apply same_bind; [apply same_value, Hc|]. intros r. same_tac. Qed.
  Lemma same_time_alarm ms ch mask al node : In (rec ch) rs -> same I (get_time_alarm w ms ch mask al node) (get_time_alarm (frozen w m) ms ch mask al node).
  Proof. intros Hc. unfold get_time_alarm. apply same_bind; [apply same_meta, Hc|]. intros r. unfold alarm_message. cbn [frozen w_alarm_name]. same_tac. Qed.
  Lemma same_get_properties ms ch node : In (rec ch) rs -> same I (get_properties w ms ch node) (get_properties (frozen w m) ms ch node).
  Proof. intros Hc. unfold get_properties. cbv zeta. apply same_bind; [apply same_props, Hc|]. intros r. same_tac. Qed.
  Lemma same_ioc_get t cval any mask x ch oc node :
    (oc <> None -> In (rec ch) rs) -> same I (ioc_get fp w t cval any mask x ch oc node) (ioc_get fp (frozen w m) t cval any mask x ch oc node).
  Proof.
    intros Hc. unfold ioc_get.
    destruct oc as [c|]; [specialize (Hc ltac:(discriminate))|]; destruct t; cbv zeta; same_tac;
      first [apply same_get_properties, Hc | apply same_time_alarm, Hc | apply same_get_scalar, Hc | apply same_get_array, Hc].
  Qed.
  Lemma same_read_field x f : (forall c, cf_chan f = Some c -> In (rec (chan_name f)) rs) -> same I (read_field fp w x f) (read_field fp (frozen w m) x f).
  Proof.
    intros Hc. unfold read_field, mask_of. cbn [frozen w_attr]. apply same_ioc_get. intros N. destruct (cf_chan f) as [c|]; [apply (Hc c eq_refl)|contradiction].
  Qed.
  Lemma same_get_field f : (forall c, cf_chan f = Some c -> In (rec (chan_name f)) rs) -> same I (get_field fp w f) (get_field fp (frozen w m) f).
  Proof.
    intros Hc. unfold get_field. apply same_seq; [|apply same_read_field, Hc]. destruct (cf_chan f); [apply same_initialize|apply same_ret].
  Qed.
End Frozen.

(** a lock taken in the state [s] *)
Lemma lock_frozen {A} w rec hist rs (x : world -> op A) s :
  seen w hist -> locks_work rec hist ->
  (forall h0, same (inside h0 rs) (x w) (x (frozen w (hist (h0 ++ [ALock rs]))))) ->
  with_lock rs (x w) s = with_lock rs (x (frozen w (hist (s_acts s ++ [ALock rs])))) s.
Proof.
  intros Hs Hl H. unfold with_lock.
  destruct (H (s_acts s) {| s_acts := s_acts s ++ [ALock rs]; s_val := s_val s |}) as (E & _).
  { exists []. split; [reflexivity|constructor]. }
  rewrite E. reflexivity.
Qed.
Lemma get_snapshot fp w g opt rec hist s :
  seen w hist -> locks_work rec hist -> places rec (g_fields g) -> atomic_of g opt = true ->
  get_group fp w g opt s = get_group fp (frozen w (hist (s_acts s ++ [ALock (records_of (g_fields g))]))) g opt s.
Proof.
  intros Hs Hl Hp Ha. unfold get_group. rewrite Ha. unfold seq, bind, assign. cbv beta iota.
  cbv zeta.
  refine (lock_frozen w rec hist (records_of (g_fields g))
    (fun w => each (fun f => match ftype f with MProc | MStructure => ret tt | _ => get_field fp w f end) (g_fields g))
    {| s_acts := s_acts s; s_val := s_val s ++ [(p3 "record" "_options" "atomic", PBool true)] |} Hs Hl _).
  intros h0. apply same_each. intros f Hf.
  assert (C : same (inside h0 (records_of (g_fields g))) (get_field fp w f) (get_field fp (frozen w (hist (h0 ++ [ALock (records_of (g_fields g))]))) f)).
  { apply (same_get_field fp w rec hist Hs Hl). intros c Hc. rewrite <- (Hp f c Hf Hc). eapply in_records; eassumption. }
  destruct (ftype f); try exact C; apply same_ret.
Qed.
