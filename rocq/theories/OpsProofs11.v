(** The content of replies: members. *)
From Coq Require Import String ZArith List Bool Lia Arith.
From Verif Require Import Base BaseProofs WireModel TypeModel TextModel ValueModel MarkModel CopyModel NtModel GroupModel OpsModel OpsSpec
  OpsProofs OpsProofs2 OpsProofs3 OpsProofs4 OpsProofs5 OpsProofs6 OpsProofs7 OpsProofs10.
Import ListNotations.
Local Open Scope Z_scope.

Definition mapped (f : cfield) (c : chan) : Prop :=
  cf_chan f = Some c /\
  match ftype f with MScalar => ch_type c = DEnum -> ch_elems c = 1 | MAny => cf_any f = Some (any_code c) | _ => True end.
Lemma shows_whole fp w m f c a : mapped f c -> shows fp w m f a -> whole fp w m f c a.
Proof.
  intros (Ec & Ht) H. destruct (H {| s_acts := []; s_val := [] |}) as (s' & E & Ev).
  destruct (added_field fp w m f c Ec Ht _ _ _ E) as (d & v & _ & E2 & K). cbn [s_val app] in *. rewrite E2 in Ev. subst v. exact (K eq_refl).
Qed.
Definition pth_dec : forall a b : list str, {a = b} + {a <> b} := list_eq_dec (list_eq_dec Z.eq_dec).
Definition fresh (q : list str) (l : list (list str)) : bool := negb (existsb (fun x => if pth_dec q x then true else false) l).
Lemma fresh_ok q l : fresh q l = true -> ~ In q l.
Proof.
  intros H I. unfold fresh in H. apply negb_true_iff in H. assert (X : existsb (fun x => if pth_dec q x then true else false) l = true).
  { apply existsb_exists. exists q. split; [exact I|]. destruct (pth_dec q q); [reflexivity|contradiction]. }
  congruence.
Qed.
Lemma content_in node (l : list (list str * src)) a0 q v :
  below node prop_paths a0 -> fresh q prop_paths = true -> NoDup (map fst l) -> In (q, v) l ->
  content_at (a0 ++ map (fun x => (node ++ fst x, snd x)) l) (node ++ q) v.
Proof.
  intros B F N I. split.
  - apply in_or_app. right. apply (in_map (fun x => (node ++ fst x, snd x)) l (q, v) I).
  - intros v' I'. apply in_app_or in I'. destruct I' as [I' | I'].
    + destruct (B _ _ I') as (q' & Iq & E). apply app_inv_head in E. subst q'. exfalso. exact (fresh_ok _ _ F Iq).
    + apply in_map_iff in I'. destruct I' as ((q' & x) & E & Ix). cbn [fst snd] in E. inversion E as [[E1 E2]]. apply app_inv_head in E1. subst q' x.
      clear - N I Ix. induction l as [|(k & y) l IH]; [destruct I|]. cbn [map fst] in N. inversion N as [|? ? Nk Nl]; subst.
      destruct I as [E | I], Ix as [E' | I']; auto.
      * congruence.
      * inversion E; subst. exfalso. apply Nk. apply (in_map fst _ _ I').
      * inversion E'; subst. exfalso. apply Nk. apply (in_map fst _ _ I).
Qed.
Section Field.
  Variables (fp : fpu) (w : world) (m : moment) (f : cfield) (c : chan) (a : list assignment).
  Hypotheses (Hm : mapped f c) (Hs : shows fp w m f a).
  Definition alarm_list (x : meta) : list (list str * src) :=
    [(p2 "alarm" "status", PUInt (status_of (m_status x))); (p2 "alarm" "severity", PUInt (m_severity x));
     (p2 "alarm" "message", PStr (alarm_message w x))].
  Definition time_list (x : meta) (mask : Z) : list (list str * src) :=
    [(p2 "timeStamp" "secondsPastEpoch", PUInt (u_cast 4 (m_sec x + 631152000)));
     (p2 "timeStamp" "nanoseconds", PUInt (Z.land (m_nsec x) (Z.lxor mask 4294967295)));
     (p2 "timeStamp" "userTag", PUInt (if mask =? 0 then m_utag x else Z.land (m_nsec x) mask))].
  Fixpoint nodup_paths (l : list (list str)) : bool :=
    match l with [] => true | x :: l' => fresh x l' && nodup_paths l' end.
  Lemma nodup_paths_ok l : nodup_paths l = true -> NoDup l.
  Proof.
    induction l as [|x l IH]; intros H; constructor; cbn in H; apply andb_prop in H; destruct H as (A & B); [apply fresh_ok, A|apply IH, B].
  Qed.
  Lemma field_meta : ftype f = MScalar \/ ftype f = MMeta ->
    exists x, mo_meta m (chan_name f) = Some x /\
      forall q v, In (q, v) (alarm_list x ++ time_list x (mask_of w f)) -> content_at a (node_of f ++ q) v.
  Proof.
    intros Ht. pose proof (shows_whole fp w m f c a Hm Hs) as Hw. unfold whole in Hw. destruct Ht as [Ht | Ht]; rewrite Ht in Hw.
    - destruct Hw as (a0 & x & r & B & Ex & _ & ->). exists x. split; [exact Ex|]. intros q v I.
      set (vq := if is_enum (ch_type c) then p2 "value" "index" else [bs "value"]).
      assert (E : a0 ++ alarm_part w x (node_of f) ++ time_part x (mask_of w f) (node_of f) ++
           [(value_member f c, shown_value fp c (value_code MScalar (cf_any f) c) r)] =
         a0 ++ map (fun y => (node_of f ++ fst y, snd y)) ((alarm_list x ++ time_list x (mask_of w f)) ++ [(vq, shown_value fp c (value_code MScalar (cf_any f) c) r)])).
      { f_equal. rewrite !map_app. unfold value_member. rewrite Ht. unfold vq. rewrite <- app_assoc. destruct (is_enum (ch_type c)); reflexivity. }
      rewrite E. apply content_in.
      + exact B.
      + cbn in I. repeat destruct I as [I | I]; try contradiction; inversion I; subst; vm_compute; reflexivity.
      + apply nodup_paths_ok. unfold vq. destruct (is_enum (ch_type c)); vm_compute; reflexivity.
      + apply in_or_app. left. exact I.
    - destruct Hw as (x & Ex & ->). exists x. split; [exact Ex|]. intros q v I.
      change (alarm_part w x (node_of f) ++ time_part x (mask_of w f) (node_of f))
        with ([] ++ map (fun y => (node_of f ++ fst y, snd y)) (alarm_list x ++ time_list x (mask_of w f))).
      apply content_in.
      + apply below_nil.
      + cbn in I. repeat destruct I as [I | I]; try contradiction; inversion I; subst; vm_compute; reflexivity.
      + apply nodup_paths_ok. vm_compute. reflexivity.
      + exact I.
  Qed.
  Lemma field_value : carries (ftype f) ->
    exists r, mo_value m (chan_name f) = Some r /\ content_at a (value_member f c) (shown_value fp c (value_code (ftype f) (cf_any f) c) r).
  Proof.
    intros Hc. pose proof (shows_whole fp w m f c a Hm Hs) as Hw. unfold whole in Hw. destruct (ftype f) eqn:Ht; try contradiction.
    - destruct Hw as (a0 & x & r & B & _ & Er & ->). exists r. split; [exact Er|].
      set (vq := if is_enum (ch_type c) then p2 "value" "index" else [bs "value"]).
      assert (Ev : value_member f c = node_of f ++ vq) by (unfold value_member, vq; rewrite Ht; destruct (is_enum (ch_type c)); reflexivity).
      assert (E : a0 ++ alarm_part w x (node_of f) ++ time_part x (mask_of w f) (node_of f) ++
           [(value_member f c, shown_value fp c (value_code MScalar (cf_any f) c) r)] =
         a0 ++ map (fun y => (node_of f ++ fst y, snd y)) ((alarm_list x ++ time_list x (mask_of w f)) ++ [(vq, shown_value fp c (value_code MScalar (cf_any f) c) r)])).
      { f_equal. rewrite !map_app. rewrite Ev. rewrite <- app_assoc. reflexivity. }
      rewrite E, Ev. apply content_in.
      + exact B.
      + unfold vq. destruct (is_enum (ch_type c)); vm_compute; reflexivity.
      + apply nodup_paths_ok. unfold vq. destruct (is_enum (ch_type c)); vm_compute; reflexivity.
      + apply in_or_app. right. left. reflexivity.
    - destruct Hw as (r & Er & ->). exists r. split; [exact Er|]. split; [left; reflexivity|]. intros v' [E | []]. congruence.
    - destruct Hw as (r & Er & ->). exists r. split; [exact Er|]. split; [left; reflexivity|]. intros v' [E | []]. congruence.
  Qed.
End Field.
