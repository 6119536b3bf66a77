(** PUT of a group: the loops over the fields. *)
From Coq Require Import String ZArith List Bool Lia.
From Verif Require Import Base BaseProofs WireModel TypeModel TextModel ValueModel MarkModel CopyModel NtModel GroupModel OpsModel OpsSpec
  OpsProofs OpsProofs2.
Import ListNotations.
Local Open Scope Z_scope.

Lemma subseq_refl {A} (l : list A) : subseq l l.
Proof. induction l; constructor; assumption. Qed.
Lemma subseq_nil {A} (l : list A) : subseq [] l.
Proof. induction l; constructor; assumption. Qed.
Lemma subseq_app {A} (a b c d : list A) : subseq a b -> subseq c d -> subseq (a ++ c) (b ++ d).
Proof. intros H H'. induction H; cbn; [exact H'|constructor; assumption|constructor; assumption]. Qed.
Lemma written_app d1 d2 : written (d1 ++ d2) = written d1 ++ written d2.
Proof. apply flat_map_app. Qed.
Lemma written_in d ch : In ch (written d) <-> exists x, In (AWrite ch x) d.
Proof.
  unfold written. rewrite in_flat_map. split.
  - intros (a & I & H). destruct a; cbn in H; try contradiction. destruct H as [-> | []]. exists d0. exact I.
  - intros (x & I). exists (AWrite ch x). split; [exact I|left; reflexivity].
Qed.

Section Put.
  Variables (fp : fpu) (w : world) (v : sent) (force : tri).
  (** what permission a client of a field gives *)
  Variable perm : list act -> str -> Prop.
  Definition entitles (f : cfield) (s : sclient) : Prop := forall h, can_write w h s = true -> perm h (chan_name f).

  Lemma put_done_calls fields f s h d a r rs :
    put_done w v f s h d a r -> entitles f s -> In f fields ->
    (forall c, cf_chan f = Some c -> In (ch_record c) rs) ->
    during h d (fun h a => no_lock a /\ ((forall r, In r rs -> held h r) -> put_call perm fields v h a /\ under_lock fields h a)).
  Proof.
    intros [_ (dw & dp & -> & Dw & Dp) _] He I Hr.
    assert (M : marked v f = true -> exists c, cf_chan f = Some c).
    { intros M. apply marked_iff in M. destruct M as ((N & _) & _). destruct (cf_chan f) as [c|]; [exists c; reflexivity|contradiction]. }
    apply during_app.
    - destruct Dw as [-> | (x & -> & Hm & Cw & Dx)]; [apply during_nil|]. apply during_one. split; [exact Logic.I|].
      intros Hh. destruct (M Hm) as (c & Ec). split.
      + split; [apply He, Cw|]. exists f, c. split; [exact I|split; [exact Ec|split; [reflexivity|split; [apply marked_iff, Hm|]]]]. apply Dx, Ec.
      + exists f, c. split; [exact I|split; [exact Ec|split; [reflexivity|]]]. apply Hh, Hr, Ec.
    - destruct Dp as [-> | (c & p & -> & Ec & [-> | ->] & Hm)]; [apply during_nil| |];
        (apply during_one; split; [exact Logic.I|]; intros Hh; split; [|apply Hh, Hr, Ec]);
        (exists f, c; split; [exact I|split; [exact Ec|split; [reflexivity|]]]);
        (destruct Hm as [Hm | Hm]; [left; apply marked_iff, Hm|right]; unfold is_proc in Hm; destruct (ftype f); try discriminate; reflexivity).
  Qed.
  Lemma put_done_order f s h d a r : put_done w v f s h d a r -> subseq (written d) [chan_name f].
  Proof.
    intros [_ (dw & dp & -> & Dw & Dp) _]. rewrite written_app.
    assert (written dp = []) as ->.
    { destruct Dp as [-> | (c & p & -> & _ & [-> | ->] & _)]; reflexivity. }
    rewrite app_nil_r. destruct Dw as [-> | (x & -> & _)]; [apply subseq_nil|apply subseq_refl].
  Qed.

  (** what the loops add *)
  Record many (fields l : list cfield) (did : bool) (rs : list nat) (h d : list act) (a : list assignment) (r : eres bool) : Prop := {
    mn_val : a = [];
    mn_calls : during h d (fun h a => no_lock a /\ ((forall r, In r rs -> held h r) -> put_call perm fields v h a /\ under_lock fields h a));
    mn_order : subseq (written d) (map chan_name l);
    mn_ok : forall b, r = EOk b ->
        b = did || existsb (fun f => marked v f || is_proc f) l /\
        (forall f, In f l -> put_to v f -> carries (ftype f) -> In (chan_name f) (written d) \/ no_array (content v f)) }.
  Lemma many_nil fields did rs h : many fields [] did rs h [] [] (EOk did).
  Proof.
    constructor; [reflexivity|apply during_nil|constructor|]. intros b E. inversion E; subst. rewrite orb_false_r. split; [reflexivity|].
    intros f [].
  Qed.
  Lemma many_cons fields f s l did rs h d1 a1 b d2 a2 r :
    put_done w v f s h d1 a1 (EOk b) -> entitles f s -> In f fields -> (forall c, cf_chan f = Some c -> In (ch_record c) rs) ->
    many fields l (did || b) rs (h ++ d1) d2 a2 r -> many fields (f :: l) did rs h (d1 ++ d2) (a1 ++ a2) r.
  Proof.
    intros P He I Hr [V C O K]. pose proof (put_done_calls fields _ _ _ _ _ _ rs P He I Hr) as C1. pose proof (put_done_order _ _ _ _ _ _ P) as O1.
    destruct P as [-> _ Pk]. destruct (Pk b eq_refl) as (-> & Pm). constructor.
    - subst. reflexivity.
    - apply during_app; assumption.
    - rewrite written_app. cbn [map]. change (chan_name f :: map chan_name l) with ([chan_name f] ++ map chan_name l). apply subseq_app; assumption.
    - intros b' E. destruct (K b' E) as (-> & Kf). split; [cbn [existsb]; rewrite <- !orb_assoc; reflexivity|].
      intros g [<- | Ig] Hp Hc.
      + destruct (Pm (proj2 (marked_iff v f) Hp)) as (_ & Pc). destruct (Pc Hc) as [Hw | Hn]; [left|right; exact Hn].
        rewrite written_app. apply in_or_app. left. apply written_in. exact Hw.
      + destruct (Kf g Ig Hp Hc) as [Hw | Hn]; [left|right; exact Hn]. rewrite written_app. apply in_or_app. right. exact Hw.
  Qed.
  Lemma many_err fields f s l did rs h d a (r : eres bool) :
    put_done w v f s h d a r -> ~ is_ok r -> entitles f s -> In f fields -> (forall c, cf_chan f = Some c -> In (ch_record c) rs) ->
    many fields (f :: l) did rs h d a (lift_err r).
  Proof.
    intros P N He I Hr. pose proof (put_done_calls fields _ _ _ _ _ _ rs P He I Hr) as C1. pose proof (put_done_order _ _ _ _ _ _ P) as O1.
    destruct P as [-> _ _]. constructor; [reflexivity|exact C1| |].
    - cbn [map]. rewrite <- (app_nil_r (written d)). change (chan_name f :: map chan_name l) with ([chan_name f] ++ map chan_name l).
      apply subseq_app; [exact O1|apply subseq_nil].
    - intros b E. destruct r; discriminate.
  Qed.
  Lemma put_all_post fields clients rs l : forall i did,
    (forall j f, nth_error l j = Some f -> entitles f (nth (i + j) clients None)) ->
    incl l fields -> incl (records_of l) rs ->
    post (put_all fp w v clients force l i did) (many fields l did rs).
  Proof.
    induction l as [|f l IH]; intros i did He Hf Hr; cbn [put_all].
    - apply post_ret. intros h. apply many_nil.
    - assert (E0 : entitles f (nth i clients None)). { specialize (He 0%nat f eq_refl). rewrite Nat.add_0_r in He. exact He. }
      assert (I0 : In f fields) by (apply Hf; left; reflexivity).
      assert (R0 : forall c, cf_chan f = Some c -> In (ch_record c) rs).
      { intros c Ec. apply Hr. unfold records_of. cbn [flat_map]. rewrite Ec. left. reflexivity. }
      apply (post_bind _ _ (put_done w v f (nth i clients None)) (fun b => many fields l (did || b) rs)).
      + apply put_field_post.
      + intros b. apply IH.
        * intros j g Hj. replace (S i + j)%nat with (i + S j)%nat by lia. apply He. exact Hj.
        * intros g Hg. apply Hf. right. exact Hg.
        * intros r Ir. apply Hr. unfold records_of in *. cbn [flat_map]. apply in_or_app. right. exact Ir.
      + intros h d a r P N. eapply many_err; eassumption.
      + intros h d1 v1 b d2 v2 r P M. eapply many_cons; eassumption.
  Qed.

  (** with a lock for each field *)
  Record apart1 (fields l : list cfield) (did : bool) (h d : list act) (a : list assignment) (r : eres bool) : Prop := {
    ap_val : a = [];
    ap_calls : during h d (fun h a => put_call perm fields v h a /\ under_lock fields h a);
    ap_order : subseq (written d) (map chan_name l);
    ap_ok : forall b, r = EOk b ->
        b = did || existsb (fun f => marked v f || is_proc f) (filter (fun f => negb (no_chan f)) l) /\
        (forall f, In f l -> put_to v f -> carries (ftype f) -> In (chan_name f) (written d) \/ no_array (content v f)) }.
  Lemma lock_one fields f s c :
    cf_chan f = Some c -> entitles f s -> In f fields ->
    post (with_lock [ch_record c] (put_field fp w v f s force))
      (fun h d a r => exists d0, d = ALock [ch_record c] :: d0 ++ [AUnlock [ch_record c]] /\
                        put_done w v f s (h ++ [ALock [ch_record c]]) d0 a r /\ during h d (fun h a => put_call perm fields v h a /\ under_lock fields h a)).
  Proof.
    intros Ec He I. eapply post_lock; [apply put_field_post|]. cbn beta. intros h d a r P.
    exists d. split; [reflexivity|split; [exact P|]].
    pose proof (put_done_calls fields _ _ _ _ _ _ [ch_record c] P He I) as C1.
    assert (R0 : forall c0, cf_chan f = Some c0 -> In (ch_record c0) [ch_record c]).
    { intros c0 E0. rewrite Ec in E0. inversion E0; subst. left. reflexivity. }
    specialize (C1 R0).
    assert (F : Forall no_lock d).
    { apply Forall_forall. intros x Ix. destruct (during_in _ _ _ _ C1 Ix) as (pre & N & _). exact N. }
    change (ALock [ch_record c] :: d ++ [AUnlock [ch_record c]]) with ([ALock [ch_record c]] ++ d ++ [AUnlock [ch_record c]]).
    apply during_app; [apply during_one; split; exact Logic.I|]. apply during_app; [|apply during_one; split; exact Logic.I].
    eapply during_imp; [|exact C1]. cbn. intros pre x (po & Ed) (N & H). apply H. intros r0 Ir.
    rewrite <- app_assoc. apply held_lock; [exact Ir|]. subst d. apply Forall_app in F. apply F.
  Qed.
  Lemma written_lock rs d : written (ALock rs :: d ++ [AUnlock rs]) = written d.
  Proof. change (written (ALock rs :: d ++ [AUnlock rs])) with (written (d ++ [AUnlock rs])). rewrite written_app. apply app_nil_r. Qed.
  Lemma put_each_post fields clients l : forall i did,
    (forall f i, In f l -> entitles f (nth i clients None)) \/
      (forall j f, nth_error l j = Some f -> cf_chan f <> None /\ entitles f (nth (i + j) clients None)) ->
    incl l fields ->
    post (put_each fp w v clients force l i did) (apart1 fields l did).
  Proof.
    induction l as [|f l IH]; intros i did He Hf; cbn [put_each].
    - apply post_ret. intros h. constructor; [reflexivity|apply during_nil|constructor|]. intros b E. inversion E; subst. cbn. rewrite orb_false_r.
      split; [reflexivity|]. intros f [].
    - assert (I0 : In f fields) by (apply Hf; left; reflexivity).
      assert (Hf' : incl l fields) by (intros g Hg; apply Hf; right; exact Hg).
      destruct (cf_chan f) as [c|] eqn:Ec.
      + assert (E0 : entitles f (nth i clients None)).
        { destruct He as [He | He]; [apply He; left; reflexivity|]. specialize (He 0%nat f eq_refl). rewrite Nat.add_0_r in He. apply He. }
        apply (post_bind _ _ _ (fun b => apart1 fields l (did || b)) _ (lock_one fields f _ c Ec E0 I0)).
        * intros b. apply IH; [|exact Hf'].
          destruct He as [He | He]; [left; intros g k Hg; apply He; right; exact Hg|right].
          intros j g Hj. replace (S i + j)%nat with (i + S j)%nat by lia. apply He. exact Hj.
        * intros h d a r (d0 & -> & P & C) N. constructor; [apply P|exact C| |].
          -- rewrite written_lock. cbn [map]. rewrite <- (app_nil_r (written d0)). change (chan_name f :: map chan_name l) with ([chan_name f] ++ map chan_name l).
             apply subseq_app; [apply (put_done_order _ _ _ _ _ _ P)|apply subseq_nil].
          -- intros b E. destruct r; try discriminate.
        * intros h d1 a1 b d2 a2 r (d0 & -> & P & C) [V2 C2 O2 K2].
          pose proof (put_done_order _ _ _ _ _ _ P) as O1. destruct P as [-> _ Pk]. destruct (Pk b eq_refl) as (-> & Pm). constructor.
          -- subst. reflexivity.
          -- apply during_app; assumption.
          -- rewrite written_app, written_lock. cbn [map]. change (chan_name f :: map chan_name l) with ([chan_name f] ++ map chan_name l). apply subseq_app; assumption.
          -- intros b' E. destruct (K2 b' E) as (-> & Kf). split.
             { assert (no_chan f = false) as Nc by (unfold no_chan; rewrite Ec; reflexivity). cbn [filter]. rewrite Nc. cbn [negb existsb]. rewrite <- !orb_assoc. reflexivity. }
             intros g [<- | Ig] Hp Hc.
             ++ destruct (Pm (proj2 (marked_iff v f) Hp)) as (_ & Pc). destruct (Pc Hc) as [Hw | Hn]; [left|right; exact Hn].
                rewrite written_app, written_lock. apply in_or_app. left. apply written_in. exact Hw.
             ++ destruct (Kf g Ig Hp Hc) as [Hw | Hn]; [left|right; exact Hn]. rewrite written_app. apply in_or_app. right. exact Hw.
      + destruct He as [He | He].
        2: { specialize (He 0%nat f eq_refl). rewrite Ec in He. destruct He as (He & _). contradiction. }
        eapply post_imp; [apply (IH i did); [left; intros g k Hg; apply He; right; exact Hg|exact Hf']|].
        intros h d a r [V C O K]. constructor; [exact V|exact C| |].
        * cbn [map]. constructor. exact O.
        * intros b E. destruct (K b E) as (Kb & Kf). split.
          { assert (no_chan f = true) as Nc by (unfold no_chan; rewrite Ec; reflexivity). cbn [filter]. rewrite Nc. exact Kb. }
          intros g [<- | Ig] Hp Hc; [|apply Kf; assumption].
          destruct Hp as ((N & _) & _). contradiction.
  Qed.
End Put.
