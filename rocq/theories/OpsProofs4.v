(** PUT of a group. *)
From Coq Require Import String ZArith List Bool Lia.
From Verif Require Import Base BaseProofs WireModel TypeModel TextModel ValueModel MarkModel CopyModel NtModel GroupModel OpsModel OpsSpec
  OpsProofs OpsProofs2 OpsProofs3.
Import ListNotations.
Local Open Scope Z_scope.

(** nothing is called or assigned *)
Definition quiet {A} (x : op A) : Prop := post x (fun _ d a _ => d = [] /\ a = []).
Lemma quiet_ret {A} (x : A) : quiet (ret x).
Proof. apply post_ret. auto. Qed.
Lemma quiet_throw {A} e : quiet (@throw A e).
Proof. apply post_throw. auto. Qed.
Lemma quiet_ask {A} (f : list act -> A) : quiet (ask f).
Proof. apply post_ask. auto. Qed.
Lemma quiet_bind {A B} (x : op A) (k : A -> op B) : quiet x -> (forall a, quiet (k a)) -> quiet (bind x k).
Proof.
  intros Hx Hk. apply (post_bind x k _ (fun _ _ d a _ => d = [] /\ a = []) _ Hx Hk); [auto|].
  intros h d1 v1 a d2 v2 r (-> & ->) (-> & ->). auto.
Qed.
Lemma quiet_each {A} (f : A -> op unit) l : (forall x, In x l -> quiet (f x)) -> quiet (each f l).
Proof.
  induction l as [|x l IH]; intros H; cbn [each]; [apply quiet_ret|].
  apply quiet_bind; [apply H; left; reflexivity|]. intros _. apply IH. intros y Hy. apply H. right. exact Hy.
Qed.
Lemma quiet_pre w c ch : quiet (pre_processing w c ch).
Proof.
  unfold pre_processing. destruct (ca_attribute _); [apply quiet_throw|]. apply quiet_bind; [apply quiet_ask|].
  intros d. destruct (_ && _); [apply quiet_throw|apply quiet_ret].
Qed.
Definition before_put w (f : cfield) : op unit :=
  match cf_chan f with
  | None => ret tt
  | Some c => seq (pre_processing w c (chan_name f)) (if ca_final_link (w_attr w (chan_name f)) then throw FLink else ret tt)
  end.
Lemma quiet_before w l : quiet (each (before_put w) l).
Proof.
  apply quiet_each. intros f _. unfold before_put. destruct (cf_chan f); [|apply quiet_ret].
  apply quiet_bind; [apply quiet_pre|]. intros _. destruct (ca_final_link _); [apply quiet_throw|apply quiet_ret].
Qed.

(** what a PUT adds *)
Record put_result (w : world) (v : sent) (perm : list act -> str -> Prop) (g : group) (atomic : bool) (h d : list act) (a : list assignment) (r : eres unit) : Prop := {
  pu_val : a = [];
  pu_calls : during h d (fun h a => put_call perm (g_fields g) v h a /\ under_lock (g_fields g) h a);
  pu_order : subseq (written d) (map chan_name (g_fields g));
  pu_lock : atomic = true ->
      d = [] \/ exists m, d = ALock (records_of (g_fields g)) :: m ++ [AUnlock (records_of (g_fields g))] /\ Forall no_lock m;
  pu_ok : r = EOk tt ->
      (forall f, In f (g_fields g) -> put_to v f -> carries (ftype f) -> In (chan_name f) (written d) \/ no_array (content v f)) /\
      (sn_marked v <> [] -> exists f, In f (g_fields g) /\ (put_to v f \/ ftype f = MProc)) }.

Lemma exists_marked v l : existsb (fun f => marked v f || is_proc f) l = true -> exists f, In f l /\ (put_to v f \/ ftype f = MProc).
Proof.
  rewrite existsb_exists. intros (f & I & H). exists f. split; [exact I|]. apply orb_prop in H. destruct H as [H | H].
  - left. apply marked_iff, H.
  - right. unfold is_proc in H. destruct (ftype f); try discriminate. reflexivity.
Qed.

Lemma put_group_post fp w g opt cr force v perm :
  (atomic_of g opt = true /\ (forall i f, nth_error (g_fields g) i = Some f -> entitles w perm f (nth i (group_clients g cr) None)) \/
   atomic_of g opt = false /\
     ((forall f i, In f (g_fields g) -> entitles w perm f (nth i (group_clients g cr) None)) \/
      (forall j f, nth_error (g_fields g) j = Some f -> cf_chan f <> None /\ entitles w perm f (nth j (group_clients g cr) None)))) ->
  post (put_group fp w g opt cr force v) (put_result w v perm g (atomic_of g opt)).
Proof.
  intros Hal. unfold put_group.
  apply (post_bind (each (before_put w) (g_fields g)) _ (fun _ d a _ => d = [] /\ a = []) (fun _ => put_result w v perm g (atomic_of g opt)));
    [apply quiet_before| | |].
  2: { intros h d a r (-> & ->) N. constructor; [reflexivity|apply during_nil|apply subseq_nil|auto|]. intros E. destruct r; discriminate. }
  2: { intros h d1 v1 _ d2 v2 r (-> & ->). rewrite app_nil_r. intros P. exact P. }
  intros _.
  set (Q := fun h d (a : list assignment) (r : eres bool) =>
    a = [] /\ during h d (fun h a => put_call perm (g_fields g) v h a /\ under_lock (g_fields g) h a) /\
    subseq (written d) (map chan_name (g_fields g)) /\
    (atomic_of g opt = true ->
       exists m, d = ALock (records_of (g_fields g)) :: m ++ [AUnlock (records_of (g_fields g))] /\ Forall no_lock m) /\
    (forall b, r = EOk b ->
       (b = true -> exists f, In f (g_fields g) /\ (put_to v f \/ ftype f = MProc)) /\
       (forall f, In f (g_fields g) -> put_to v f -> carries (ftype f) -> In (chan_name f) (written d) \/ no_array (content v f)))).
  apply (post_bind _ _ Q (fun did _ d a r => d = [] /\ a = [] /\ (r = EOk tt -> sn_marked v <> [] -> did = true))).
  - destruct Hal as [(Ha & Hal) | (Ha & Hal)]; rewrite Ha.
    + eapply post_lock; [apply (put_all_post fp w v force perm (g_fields g) (group_clients g cr) (records_of (g_fields g)) (g_fields g) 0 false)|].
      * cbn [Nat.add]. exact Hal.
      * apply incl_refl.
      * apply incl_refl.
      * cbn beta. intros h d a r [V C O K].
        assert (F : Forall no_lock d).
        { apply Forall_forall. intros x Ix. destruct (during_in _ _ _ _ C Ix) as (pre & N & _). exact N. }
        unfold Q. rewrite written_lock. split; [exact V|split; [|split; [exact O|split]]].
        -- change (ALock (records_of (g_fields g)) :: d ++ [AUnlock (records_of (g_fields g))])
             with ([ALock (records_of (g_fields g))] ++ d ++ [AUnlock (records_of (g_fields g))]).
           apply during_app; [apply during_one; split; exact Logic.I|]. apply during_app; [|apply during_one; split; exact Logic.I].
           eapply during_imp; [|exact C]. cbn beta. intros pre x (po & Ed) (N & H). apply H. intros r0 Ir.
           rewrite <- app_assoc. apply held_lock; [exact Ir|]. subst d. apply Forall_app in F. apply F.
        -- intros _. exists d. auto.
        -- intros b E. destruct (K b E) as (-> & Kf). split; [|exact Kf]. cbn [orb]. apply exists_marked.
    + eapply post_imp; [apply (put_each_post fp w v force perm (g_fields g) (group_clients g cr) (g_fields g) 0 false Hal (incl_refl _))|].
      cbn beta. intros h d a r [V C O K]. unfold Q. rewrite Ha. split; [exact V|split; [exact C|split; [exact O|split; [discriminate|]]]].
      intros b E. destruct (K b E) as (-> & Kf). split; [|exact Kf]. cbn [orb]. intros X. apply exists_marked in X.
      destruct X as (f & I & X). apply filter_In in I. exists f. split; [apply I|exact X].
  - intros did. destruct (negb did && any_sent v) eqn:E.
    + apply post_throw. intros _. split; [reflexivity|split; [reflexivity|discriminate]].
    + apply post_ret. intros _. split; [reflexivity|split; [reflexivity|]]. intros _ N. unfold any_sent in E.
      destruct did; [reflexivity|]. destruct (sn_marked v); [contradiction|discriminate].
  - intros h d a r (V & C & O & L & K) N. constructor; [exact V|exact C|exact O|auto|]. intros E. destruct r; discriminate.
  - intros h d1 a1 b d2 a2 r (V & C & O & L & K) (-> & -> & H). rewrite !app_nil_r. constructor; [exact V|exact C|exact O|auto|].
    intros E. destruct (K b eq_refl) as (Kb & Kf). split; [exact Kf|]. intros N. apply Kb, H; assumption.
Qed.

(** the clients fit *)
Lemma clients_nth g cr i f : nth_error (g_fields g) i = Some f ->
  nth i (group_clients g cr) None = match cf_chan f with Some _ => Some (chan_name f, cr) | None => None end.
Proof.
  intros E. apply nth_error_nth. unfold group_clients.
  apply (map_nth_error (fun f => match cf_chan f with Some _ => Some (chan_name f, cr) | None => None end) _ _ E).
Qed.
Lemma clients_entitle w g cr i f : nth_error (g_fields g) i = Some f ->
  entitles w (fun h ch => allowed w h ch cr) f (nth i (group_clients g cr) None).
Proof.
  intros E h H. rewrite (clients_nth g cr i f E) in H. destruct (cf_chan f); [|discriminate]. apply allowed_iff, H.
Qed.
Lemma put_allowed fp w g opt cr force v :
  atomic_of g opt = true \/ (forall f, In f (g_fields g) -> cf_chan f <> None) ->
  post (put_group fp w g opt cr force v) (put_result w v (fun h ch => allowed w h ch cr) g (atomic_of g opt)).
Proof.
  intros H. apply put_group_post. destruct (atomic_of g opt).
  - left. split; [reflexivity|]. intros i f. apply clients_entitle.
  - destruct H as [H | H]; [discriminate|]. right. split; [reflexivity|]. right. intros j f E.
    split; [apply H; eapply nth_error_In; exact E|apply clients_entitle, E].
Qed.
Lemma put_any fp w g opt cr force v :
  post (put_group fp w g opt cr force v) (put_result w v (fun _ _ => True) g (atomic_of g opt)).
Proof.
  apply put_group_post. destruct (atomic_of g opt); [left|right]; (split; [reflexivity|]); [|left]; intros; intros h _; exact I.
Qed.
