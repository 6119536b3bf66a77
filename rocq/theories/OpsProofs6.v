(** GET of a group: fields apart, success and completeness. *)
From Coq Require Import String ZArith List Bool Lia.
From Verif Require Import Base BaseProofs WireModel TypeModel TextModel ValueModel MarkModel CopyModel NtModel GroupModel OpsModel OpsSpec
  OpsProofs OpsProofs2 OpsProofs3 OpsProofs4 OpsProofs5.
Import ListNotations.
Local Open Scope Z_scope.

(** ** Operations which add the same to every state *)
Definition steady {A} (x : op A) : Prop :=
  exists d a r, forall s, x s = ({| s_acts := s_acts s ++ d; s_val := s_val s ++ a |}, r).
Lemma ost_eta s : s = {| s_acts := s_acts s ++ []; s_val := s_val s ++ [] |}.
Proof. destruct s. cbn. rewrite !app_nil_r. reflexivity. Qed.
Lemma steady_ret {A} (x : A) : steady (ret x).
Proof. exists [], [], (EOk x). intros s. rewrite <- ost_eta. reflexivity. Qed.
Lemma steady_throw {A} e : steady (@throw A e).
Proof. exists [], [], (EErr e). intros s. rewrite <- ost_eta. reflexivity. Qed.
Lemma steady_undefined {A} : steady (@undefined A).
Proof. exists [], [], EUB. intros s. rewrite <- ost_eta. reflexivity. Qed.
Lemma steady_assign p v : steady (assign p v).
Proof. exists [], [(p, v)], (EOk tt). intros s. rewrite app_nil_r. reflexivity. Qed.
Lemma steady_call {A} a (o : option A) : steady (call a (fun _ => o)).
Proof. exists [a], [], (match o with Some x => EOk x | None => EErr FDb end). intros s. rewrite app_nil_r. reflexivity. Qed.
Lemma steady_bind {A B} (x : op A) (k : A -> op B) : steady x -> (forall a, steady (k a)) -> steady (bind x k).
Proof.
  intros (d & a & r & Hx) Hk. destruct r as [v | e |].
  - destruct (Hk v) as (d' & a' & r' & Hv). exists (d ++ d'), (a ++ a'), r'. intros s. unfold bind. rewrite Hx, Hv. cbn [s_acts s_val].
    rewrite !app_assoc. reflexivity.
  - exists d, a, (EErr e). intros s. unfold bind. rewrite Hx. reflexivity.
  - exists d, a, EUB. intros s. unfold bind. rewrite Hx. reflexivity.
Qed.
Lemma steady_seq {A B} (x : op A) (k : op B) : steady x -> steady k -> steady (seq x k).
Proof. intros. apply steady_bind; auto. Qed.
Ltac steady_tac :=
  repeat match goal with
         | |- steady (ret _) => apply steady_ret
         | |- steady (throw _) => apply steady_throw
         | |- steady undefined => apply steady_undefined
         | |- steady (assign _ _) => apply steady_assign
         | |- steady (call _ _) => apply steady_call
         | |- steady (seq _ _) => apply steady_seq
         | |- steady (bind _ _) => apply steady_bind; [|intro]
         | |- steady (set _ _ _ _) => unfold set
         | |- steady (set_if _ _ _ _) => unfold set_if
         | |- steady (if ?c then _ else _) => destruct c
         | |- steady (match ?c with _ => _ end) => destruct c
         end.
Lemma steady_get_field fp w m f : steady (get_field fp (frozen w m) f).
Proof.
  unfold get_field. apply steady_seq.
  - destruct (cf_chan f); [|apply steady_ret]. unfold initialize. cbv zeta. steady_tac.
  - unfold read_field, ioc_get. cbv zeta. destruct (ftype f); steady_tac;
      unfold get_properties, get_time_alarm, get_scalar, get_array; cbv zeta; cbn [frozen w_meta w_props w_value]; steady_tac.
Qed.

(** ** Each field shows one moment *)
Definition group_field fp w (f : cfield) : op unit :=
  match cf_chan f with
  | None => ret tt
  | Some c => match ftype f with
              | MProc => ret tt
              | _ => with_lock [ch_record c] (get_field fp w f)
              end
  end.
(** [a] is what [f] shows at a moment of the calls [d] *)
Definition at_moment fp w hist (h d : list act) (f : cfield) (a : list assignment) : Prop :=
  a = [] /\ (cf_chan f = None \/ ftype f = MProc) \/ exists pre post, d = pre ++ post /\ shows fp w (hist (h ++ pre)) f a.
Lemma field_moment fp w rec hist f :
  seen w hist -> locks_work rec hist -> (forall c, cf_chan f = Some c -> ch_record c = rec (chan_name f)) ->
  post (group_field fp w f) (fun h d a r => r = EOk tt -> at_moment fp w hist h d f a).
Proof.
  intros Hs Hl Hp s s' r E. unfold group_field in E. destruct (cf_chan f) as [c|] eqn:Ec.
  2: { unfold ret in E. inversion E; subst. exists [], []. rewrite !app_nil_r. split; [reflexivity|split; [reflexivity|]]. intros _. left. auto. }
  assert (C : with_lock [ch_record c] (get_field fp w f) s = (s', r) ->
     exists (d : list act) (v : list assignment), s_acts s' = s_acts s ++ d /\ s_val s' = s_val s ++ v /\
       (r = EOk tt -> at_moment fp w hist (s_acts s) d f v)).
  { intros E'. rewrite (lock_frozen w rec hist [ch_record c] (fun w => get_field fp w f) s Hs Hl) in E'.
    2: { intros h0. apply (same_get_field fp w rec hist Hs Hl). intros c' Ec'. rewrite Ec in Ec'. inversion Ec'; subst. left. apply (Hp c' eq_refl). }
    destruct (steady_get_field fp w (hist (s_acts s ++ [ALock [ch_record c]])) f) as (d & a & r' & H).
    unfold with_lock in E'. rewrite H in E'. cbn [s_acts s_val] in E'. inversion E'; subst. cbn [s_acts s_val].
    exists ([ALock [ch_record c]] ++ d ++ [AUnlock [ch_record c]]), a.
    split; [rewrite <- !app_assoc; reflexivity|split; [reflexivity|]]. intros ->. right.
    exists [ALock [ch_record c]], (d ++ [AUnlock [ch_record c]]). split; [reflexivity|].
    intros s0. rewrite H. eexists. split; [reflexivity|]. reflexivity. }
  destruct (ftype f) eqn:Et; try (apply C; exact E).
  unfold ret in E. inversion E; subst. exists [], []. rewrite !app_nil_r. split; [reflexivity|split; [reflexivity|]]. intros _. left. auto.
Qed.
Lemma at_moment_later fp w hist h d1 d2 f a : at_moment fp w hist (h ++ d1) d2 f a -> at_moment fp w hist h (d1 ++ d2) f a.
Proof.
  intros [H | (pre & po & -> & H)]; [left; exact H|]. right. exists (d1 ++ pre), po. rewrite !app_assoc. split; [reflexivity|].
  rewrite <- app_assoc in H. rewrite <- app_assoc. exact H.
Qed.
Lemma at_moment_before fp w hist h d1 d2 f a : at_moment fp w hist h d1 f a -> at_moment fp w hist h (d1 ++ d2) f a.
Proof.
  intros [H | (pre & po & -> & H)]; [left; exact H|]. right. exists pre, (po ++ d2). rewrite app_assoc. split; [reflexivity|exact H].
Qed.
Lemma F2_at fp w hist (P : list act -> Prop) h d d' l :
  (forall f a, at_moment fp w hist h d f a -> at_moment fp w hist h d' f a) -> forall pieces,
  Forall2 (at_moment fp w hist h d) l pieces -> Forall2 (at_moment fp w hist h d') l pieces.
Proof. intros H pieces F. induction F; constructor; auto. Qed.
Lemma get_pieces fp w rec hist l :
  seen w hist -> locks_work rec hist -> places rec l ->
  post (each (group_field fp w) l)
    (fun h d a r => r = EOk tt -> exists pieces, a = concat pieces /\ Forall2 (at_moment fp w hist h d) l pieces).
Proof.
  intros Hs Hl. induction l as [|f l IH]; intros Hp; cbn [each].
  - apply post_ret. intros h _. exists []. split; [reflexivity|constructor].
  - apply (post_bind _ _ (fun h d a r => r = EOk tt -> at_moment fp w hist h d f a)
             (fun _ h d a r => r = EOk tt -> exists pieces, a = concat pieces /\ Forall2 (at_moment fp w hist h d) l pieces)).
    + apply (field_moment fp w rec hist f Hs Hl). intros c Ec. apply Hp; [left; reflexivity|exact Ec].
    + intros u. apply IH. intros g c Ig. apply Hp. right. exact Ig.
    + intros h d v r _ N E. destruct r; discriminate.
    + intros h d1 v1 u d2 v2 r H1 H2 E. destruct u. specialize (H1 eq_refl). destruct (H2 E) as (ps & -> & F).
      exists (v1 :: ps). split; [reflexivity|]. constructor; [apply at_moment_before, H1|].
      clear - F. induction F; constructor; [apply at_moment_later; assumption|assumption].
Qed.
Lemma get_apart fp w g opt rec hist s s' :
  seen w hist -> locks_work rec hist -> places rec (g_fields g) -> atomic_of g opt = false ->
  get_group fp w g opt s = (s', EOk tt) ->
  exists d pieces, s_acts s' = s_acts s ++ d /\
    s_val s' = s_val s ++ (p3 "record" "_options" "atomic", PBool false) :: concat pieces /\
    Forall2 (at_moment fp w hist (s_acts s) d) (g_fields g) pieces.
Proof.
  intros Hs Hl Hp Ha E. unfold get_group in E. rewrite Ha in E. unfold seq, bind, assign in E. cbv beta iota zeta in E.
  change (each (group_field fp w) (g_fields g) {| s_acts := s_acts s; s_val := s_val s ++ [(p3 "record" "_options" "atomic", PBool false)] |} = (s', EOk tt)) in E.
  destruct (get_pieces fp w rec hist _ Hs Hl Hp _ _ _ E) as (d & a & E1 & E2 & H). cbn [s_acts s_val] in *.
  destruct (H eq_refl) as (ps & -> & F). exists d, ps. split; [exact E1|split; [|exact F]]. rewrite E2, <- app_assoc. reflexivity.
Qed.

(** ** Success *)
Definition fine (x : op unit) : Prop := post x (fun _ _ _ r => r = EOk tt).
Lemma fine_seq x y : fine x -> fine y -> fine (seq x y).
Proof.
  intros Hx Hy. apply (post_bind x (fun _ => y) _ (fun _ _ _ _ r => r = EOk tt) _ Hx (fun _ => Hy)).
  - intros h d v r -> N. exfalso. apply N. exists tt. reflexivity.
  - auto.
Qed.
Lemma fine_ret : fine (ret tt).
Proof. apply post_ret. auto. Qed.
Lemma fine_assign p v : fine (assign p v).
Proof. apply post_assign. auto. Qed.
Lemma fine_call {A} a (f : list act -> option A) k : (forall h, f h <> None) -> (forall x, fine (k x)) -> fine (bind (call a f) k).
Proof.
  intros Hf Hk. apply (post_bind _ k (fun h d v r => is_ok r) (fun _ _ _ _ r => r = EOk tt)).
  - apply post_call. intros h. destruct (f h) as [x|] eqn:E; [exists x; reflexivity|]. exfalso. exact (Hf h E).
  - exact Hk.
  - intros h d v r H N. contradiction.
  - auto.
Qed.
Lemma fine_each {A} (f : A -> op unit) l : (forall x, In x l -> fine (f x)) -> fine (each f l).
Proof.
  induction l as [|x l IH]; intros H; cbn [each]; [apply fine_ret|].
  apply fine_seq; [apply H; left; reflexivity|]. apply IH. intros y Hy. apply H. right. exact Hy.
Qed.
Lemma fine_lock rs x : fine x -> fine (with_lock rs x).
Proof. intros H. eapply post_lock; [exact H|]. auto. Qed.
Lemma fine_set ms node p v : has_member ms p = true -> fine (set ms node p v).
Proof. intros H. unfold set. rewrite H. apply fine_assign. Qed.
Lemma fine_set_if ms node p v : fine (set_if ms node p v).
Proof. unfold set_if. destruct (has_member ms p); [apply fine_assign|apply fine_ret]. Qed.

(** the members which are set are there *)
Definition has_time (ms : list member) : bool :=
  forallb (has_member ms) [p2 "alarm" "status"; p2 "alarm" "severity"; p2 "alarm" "message";
     p2 "timeStamp" "secondsPastEpoch"; p2 "timeStamp" "nanoseconds"; p2 "timeStamp" "userTag"].
Definition has_limits (ms : list member) : bool :=
  implb (has_member ms (p2 "display" "limitLow"))
    (forallb (has_member ms) [p2 "display" "limitHigh"; p2 "display" "precision"; p2 "control" "limitLow"; p2 "control" "limitHigh";
       p2 "valueAlarm" "lowAlarmLimit"; p2 "valueAlarm" "lowWarningLimit"; p2 "valueAlarm" "highWarningLimit"; p2 "valueAlarm" "highAlarmLimit"]).
Definition has_form (ms : list member) : bool :=
  implb (has_member ms (p3 "display" "form" "choices")) (has_member ms (p3 "display" "form" "index")).
Lemma scalar_members c : readable c ->
  has_time (node_members MScalar c) = true /\ has_limits (node_members MScalar c) = true /\ has_form (node_members MScalar c) = true.
Proof.
  intros (Hl & Ht & _). unfold node_members, channel_def, channel_type. rewrite Hl. cbn [andb].
  destruct (ch_type c); try contradiction; destruct (ch_elems c =? 1); destruct (ch_text c); vm_compute; repeat split.
Qed.
