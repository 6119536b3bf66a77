(** Proofs on mailbox PVs. *)
From Coq Require Import String ZArith List Bool Lia Arith.
From Verif Require Import Base WireModel TypeModel TypeSpec TypeProofs TypeNameProofs TypeProps FieldProofs ValueModel ValueSpec ValueTypeProofs MarkModel MarkSpec MarkProps
  CopyModel CopySpec CopyProofs CopyProps LookupModel LookupProofs ServerViewProofs NtProps BoxModel BoxSpec.
Import ListNotations.
Local Open Scope Z_scope.

Lemma child_lookup f v i nd x name t : nth_error (v_nodes v) i = Some nd -> f_code nd = tc_Struct -> nth_error (v_cells v) i = Some t ->
  (x =? c_up) = false -> cut_at stop_struct (x :: name) = (x :: name, []) ->
  lookup_expr (S (S f)) true (x :: name) v i = (v, match map_get (x :: name) (f_lookup nd) with Some k => At [] (i + k) | None => Gone end).
Proof.
  intros N C T X CU. unfold lookup_expr. cbn [traverse]. rewrite N. destruct t as (b & st). rewrite T, X, C.
  change (tc_Struct =? tc_Struct) with true. cbv iota. cbn [andb]. rewrite CU. cbn [is_nil andb].
  destruct (map_get _ _); reflexivity.
Qed.
Lemma join_dot a b r : In 46 (join (a :: b :: r)).
Proof. cbn [join]. apply in_or_app. right. now left. Qed.
Lemma no_child m name : m_code m = tc_Struct -> ~ In 46 name -> name <> [] -> (forall k d, ~ field_at m [name] k d) -> map_get name (lookup_of m) = None.
Proof.
  intros S ND NE NF. destruct (map_get name (lookup_of m)) as [i|] eqn:E; [|reflexivity]. exfalso.
  destruct (C18_lookup_table_only m name i S E) as (path & d & J & F). destruct path as [|a [|b r]].
  - inversion F.
  - cbn [join] in J. subst a. exact (NF _ _ F).
  - apply ND. rewrite J. apply join_dot.
Qed.
Lemma child m name i d : good_type m -> m_code m = tc_Struct -> field_at m [name] i d -> map_get name (lookup_of m) = Some i.
Proof. intros (_ & D & A) S F. destruct (C18_lookup_table m [name] i d S D A F) as (H & _). exact H. Qed.

Section Box.
  Variable fuel : nat.
  Variable fp : fpu.
  Variable same : list fdesc -> list fdesc -> bool.
  Variable m : member.
  Hypothesis FW : exact_widening fp.
  Hypothesis TS : types_shared same.
  Hypothesis G : good_type m.
  Hypothesis ST : m_code m = tc_Struct.
  Hypothesis NU : no_union m.
  Notation nodes := (flatten m).
  Notation ok u := (value_of m (Val nodes u)).
  Notation F := (S (S fuel)).

  Lemma ok_length u : ok u -> List.length u = List.length nodes.
  Proof. intros (_ & _ & C). exact (cells_ok_length _ _ C). Qed.
  Lemma ok_storage_for u : ok u -> storage_for m (Val nodes u).
  Proof.
    intros (_ & _ & C). split; [reflexivity|]. cbn [v_cells]. inversion C as [? ? H0]; subst. clear C.
    pose proof (nodes_init m (proj1 G)) as NI. clear - H0 NI. induction H0 as [|d c n cs H H0 IH]; [constructor|]. inversion NI as [|? ? I0 NI']; subst. constructor; [|auto].
    eexists. split; [exact I0|]. exact (node_ok_kind _ _ _ H I0).
  Qed.
  Lemma ok_storage u : ok u -> storage m nodes u.
  Proof. intro O. split; [exact G|]. split; [reflexivity|]. exact (ok_length u O). Qed.
  Lemma root_at : struct_at m 0 m.
  Proof. split; [exact ST|left; auto]. Qed.
  Lemma ok_cells u : List.length u = List.length nodes -> (forall k d b s, nth_error nodes k = Some d -> nth_error u k = Some (b, s) -> node_ok d s) -> ok u.
  Proof.
    intros L EACH. split; [exact G|]. split; [reflexivity|]. constructor. revert L EACH. generalize nodes as n. induction u as [|x u IH]; intros [|d n] L EACH; try discriminate; constructor.
    - destruct x as (b & s). exact (EACH 0%nat d b s eq_refl eq_refl).
    - apply IH; [now injection L|]. intros k d' b s E1 E2. exact (EACH (S k) d' b s E1 E2).
  Qed.

  (** ** The time *)
  Lemma field_ok u j s d : ok u -> nth_error nodes j = Some d -> node_ok d s -> forall u', field_set j s u u' -> ok u'.
  Proof.
    intros O N K u' (L & S1 & S2). apply ok_cells; [transitivity (List.length u); [exact L|exact (ok_length u O)]|]. intros k d' b s' E1 E2. unfold cell in *. destruct (Nat.eq_dec k j) as [->|NE].
    - rewrite S1 in E2. injection E2 as <- <-. congruence.
    - rewrite S2 in E2 by exact NE. destruct O as (_ & _ & C). exact (cells_ok_node _ _ _ _ _ _ C E1 E2).
  Qed.
  Lemma ok_field_of u j d c : ok u -> nth_error nodes j = Some d -> f_code d = c -> field_of nodes u j c.
  Proof.
    intros O N C. pose proof (ok_length u O) as L. destruct (nth_error u j) as [(b, s)|] eqn:E.
    2:{ apply nth_error_None in E. assert (j < List.length nodes)%nat by (apply nth_error_Some; congruence). unfold cell in *. lia. }
    destruct (ok_storage_for u O) as (_ & H). cbn [v_cells] in H.
    destruct (Forall2_nth _ _ _ j d (b, s) H N E) as (s0 & I & K). exists d, b, s, s0. rewrite <- C. auto.
  Qed.
  Lemma set_named_ok v k nd x name i d c z : ok v -> nth_error nodes k = Some nd -> f_code nd = tc_Struct ->
    (x =? c_up) = false -> cut_at stop_struct (x :: name) = (x :: name, []) -> map_get (x :: name) (f_lookup nd) = Some i ->
    nth_error nodes (k + i) = Some d -> f_code d = c -> int_width c <> None -> in_type c z -> in_type tc_UInt64 z ->
    exists u', set_named F fp same (Val nodes v) k (x :: name) (PUInt z) = (ROk, Val nodes u') /\ field_set (k + i) (SInt z) v u' /\ ok u'.
  Proof.
    intros O N C X CU MG ND DC W T T64. pose proof (ok_length v O) as L.
    destruct (nth_error v k) as [t|] eqn:E. 2:{ apply nth_error_None in E. assert (k < List.length nodes)%nat by (apply nth_error_Some; congruence). unfold cell in *. lia. }
    unfold set_named. rewrite (child_lookup fuel (Val nodes v) k nd x name t N C E X CU), MG.
    assert (IC : int_code c) by (left; exact W).
    destruct (C19_integer_stored (S fuel) fp same nodes v (k + i) c (PUInt z) z IC (ok_field_of v _ d c O ND DC)) as (u' & r & CI & WR & FS); [right; split; [reflexivity|exact T64]|].
    assert (r = z) by (eapply wraps_unique; [exact IC|exact WR|split; [exact T|exists 0; lia]]). subst r.
    exists u'. cbn [v_nodes v_cells]. rewrite CI. split; [reflexivity|].
    assert (IS : int_sto c z = SInt z) by (unfold int_sto; now destruct (int_width c)). rewrite IS in FS. split; [exact FS|].
    refine (field_ok v _ (SInt z) d O ND _ u' FS). destruct (int_width c) as [n|] eqn:IW; [|congruence]. apply ok_int with n; [now rewrite DC|].
    unfold in_type in T. rewrite IW in T. exact T.
  Qed.

  Lemma stamp_ok u now : ok u -> (no_time m \/ exists k a b, time_at m k a b) -> (forall t, now = Some t -> time_ok t) ->
    exists u', stamp F fp same (Val nodes u) now = (ROk, Val nodes u') /\ ok u' /\ timed m now u u'.
  Proof.
    intros O TT TO. pose proof (ok_length u O) as L. destruct (struct_at_nodes m 0 m G root_at) as (_ & (rd & RN & RC & RL) & _).
    destruct (nth_error u 0) as [t|] eqn:E. 2:{ apply nth_error_None in E. assert (0 < List.length nodes)%nat by (apply nth_error_Some; congruence). unfold cell in *. lia. }
    unfold stamp. change (bs "timeStamp") with (116 :: bs "imeStamp") at 1.
    rewrite (child_lookup fuel (Val nodes u) 0 rd 116 (bs "imeStamp") t RN RC E eq_refl eq_refl), RL. change (116 :: bs "imeStamp") with (bs "timeStamp").
    destruct TT as [NT|(k & a & b & d & x & y & i & j & FK & DS & FI & XC & -> & FJ & YC & ->)].
    - rewrite (no_child m (bs "timeStamp") ST); [| |discriminate|exact NT]. 2:{ vm_compute. intuition discriminate. }
      exists u. split; [reflexivity|]. split; [exact O|]. left. auto.
    - rewrite (child m (bs "timeStamp") k d G ST FK). cbn [Nat.add v_nodes v_cells].
      assert (SA : struct_at m k d) by (split; [exact DS|right; eauto]).
      destruct (struct_at_nodes m k d G SA) as (GD & (kd & KN & KC & KL) & KS & KB & KI).
      assert (KLT : (k < List.length nodes)%nat) by (apply nth_error_Some; congruence).
      destruct (C16_is_marked m nodes u k true true (ok_storage u O) KLT) as (r & IM & IR). rewrite IM.
      assert (GT : r = true <-> gives_time m k u) by (rewrite IR; unfold gives_time; intuition eauto).
      assert (TA : time_at m k (k + i) (k + j)) by (exists d, x, y, i, j; auto 10).
      destruct r; [|destruct now as [(sec & nsec)|]].
      + exists u. split; [reflexivity|]. split; [exact O|]. right. exists k, (k + i)%nat, (k + j)%nat. split; [exact TA|]. left. split; [left; now apply GT|reflexivity].
      + destruct (TO _ eq_refl) as (T1 & T2). cbn [fst snd] in T1, T2.
        assert (MD : (sec + 631152000) mod 2 ^ 32 = sec + 631152000) by (apply Z.mod_small; lia). rewrite MD.
        assert (NX : exists xd, nth_error nodes (k + i) = Some xd /\ f_code xd = tc_Int64 /\ (1 <= i < nfields d)%nat).
        { pose proof (field_at_bound _ _ _ _ FI) as B. destruct (C18_lookup_table d [bs "secondsPastEpoch"] i x DS (proj1 (proj2 GD)) (proj2 (proj2 GD)) FI) as (_ & LX).
          destruct (located_node d i x LX) as (xd & XN & XD & _). exists xd. rewrite KS by exact B. rewrite XD, XC. auto. }
        assert (NY : exists yd, nth_error nodes (k + j) = Some yd /\ f_code yd = tc_Int32 /\ (1 <= j < nfields d)%nat).
        { pose proof (field_at_bound _ _ _ _ FJ) as B. destruct (C18_lookup_table d [bs "nanoseconds"] j y DS (proj1 (proj2 GD)) (proj2 (proj2 GD)) FJ) as (_ & LY).
          destruct (located_node d j y LY) as (yd & YN & YD & _). exists yd. rewrite KS by exact B. rewrite YD, YC. auto. }
        destruct NX as (xd & XN & XD & _), NY as (yd & YN & YD & _).
        destruct (set_named_ok u k kd 115 (bs "econdsPastEpoch") i xd tc_Int64 (sec + 631152000) O KN KC) as (u1 & S1 & FS1 & O1);
          [reflexivity|reflexivity|rewrite KL; exact (child d _ i x GD DS FI)|exact XN|exact XD|discriminate| |..].
        { unfold in_type. change (int_width tc_Int64) with (Some 8%nat). unfold signed_in. cbn. lia. }
        { unfold in_type. change (int_width tc_UInt64) with (@None nat). change (uint_width tc_UInt64) with (Some 8%nat). unfold unsigned_in. cbn. lia. }
        change (115 :: bs "econdsPastEpoch") with (bs "secondsPastEpoch") in S1. rewrite S1.
        destruct (set_named_ok u1 k kd 110 (bs "anoseconds") j yd tc_Int32 nsec O1 KN KC) as (u2 & S2 & FS2 & O2);
          [reflexivity|reflexivity|rewrite KL; exact (child d _ j y GD DS FJ)|exact YN|exact YD|discriminate| |..].
        { unfold in_type. change (int_width tc_Int32) with (Some 4%nat). unfold signed_in. cbn. lia. }
        { unfold in_type. change (int_width tc_UInt64) with (@None nat). change (uint_width tc_UInt64) with (Some 8%nat). unfold unsigned_in. cbn. lia. }
        change (110 :: bs "anoseconds") with (bs "nanoseconds") in S2. exists u2. split; [exact S2|]. split; [exact O2|].
        right. exists k, (k + i)%nat, (k + j)%nat. split; [exact TA|]. right. split; [intro H; apply GT in H; discriminate|]. exists sec, nsec, u1. auto.
      + exists u. split; [reflexivity|]. split; [exact O|]. right. exists k, (k + i)%nat, (k + j)%nat. split; [exact TA|]. left. auto.
  Qed.

  (** ** Posting *)
  Lemma assigned_ok u c c' : ok u -> ok c -> assigned nodes u 0 m 0 c c' -> ok c'.
  Proof.
    intros OU OC (L & _ & RT & FD). pose proof (ok_length u OU) as LU. pose proof (ok_length c OC) as LC.
    apply ok_cells; [transitivity (List.length c); [exact L|exact LC]|]. intros k d b s E1 E2.
    assert (K : (k < List.length nodes)%nat) by (apply nth_error_Some; congruence). pose proof (nfields_flatten m) as NF.
    destruct (nth_error u k) as [(vu, su)|] eqn:EU; [|apply nth_error_None in EU; unfold cell in *; lia].
    destruct (nth_error c k) as [(vc, sc)|] eqn:EC; [|apply nth_error_None in EC; unfold cell in *; lia].
    pose proof (cells_ok_node _ _ _ _ _ _ (proj2 (proj2 OU)) E1 EU) as NKU. pose proof (cells_ok_node _ _ _ _ _ _ (proj2 (proj2 OC)) E1 EC) as NKC.
    destruct k as [|k].
    - destruct (RT vc sc EC) as (b' & E & _). unfold cell in *. rewrite E2 in E. injection E as <- ->. exact NKC.
    - destruct (FD (S k) d vu su vc sc) as (vn & sn & E & H); [lia|exact E1|exact EU|exact EC|]. cbn [Nat.add] in *. unfold cell in *. rewrite E2 in E. injection E as <- ->.
      destruct (f_code d =? tc_Struct); [destruct H as (-> & _); exact NKC|]. destruct H as (H1 & H2).
      destruct (carried_dec m G (fun _ => True) (fun _ _ _ _ => Logic.I) u 0 (S k)) as [CA|CA]; [destruct (H1 CA) as (_ & ->); now apply as_assigned_ok|destruct (H2 CA) as (_ & ->); exact NKC].
  Qed.
  Lemma post_ok subs c u : ok c -> ok u -> exists c' w, post F fp same subs (Some (Val nodes c)) (Val nodes u) = (ROk, Some (Val nodes c'), w) /\
    assigned nodes u 0 m 0 c c' /\ ok c' /\
    (subs = true -> exists new x, w = Some (Val nodes x) /\ value_new nodes = DOK (Val nodes new) /\ Forall2 (fun d x => fst x = false /\ initial d (snd x)) nodes new /\
       assigned nodes u 0 m 0 new x).
  Proof.
    intros OC OU. unfold post. cbn [v_nodes]. rewrite TS.
    destruct (C21_assign_partial fuel fp same m 0 m u m 0 c FW TS OU root_at G (ok_storage_for c OC) root_at NU) as (t & c' & A & AS). rewrite A.
    destruct (C21_clone_partial fuel fp same m u FW TS OU ST NU) as (new & x & VN & IN & CL & XS).
    destruct subs.
    - rewrite CL. exists c', (Some (Val nodes x)). split; [reflexivity|]. split; [exact AS|]. split; [exact (assigned_ok u c c' OU OC AS)|]. intros _. exists new, x. auto.
    - exists c', None. split; [reflexivity|]. split; [exact AS|]. split; [exact (assigned_ok u c c' OU OC AS)|]. discriminate.
  Qed.
  Lemma get_ok c : ok c -> exists new x, get F fp same (Some (Val nodes c)) = AValue (Val nodes x) /\ Forall2 (fun d x => fst x = false /\ initial d (snd x)) nodes new /\
    assigned nodes c 0 m 0 new x.
  Proof.
    intros OC. destruct (C21_clone_partial fuel fp same m c FW TS OC ST NU) as (new & x & VN & IN & CL & XS).
    exists new, x. unfold get. rewrite CL. auto.
  Qed.

  (** ** Histories *)
  Lemma assigned_step j d u c c' x y us : ok u -> ok c -> assigned nodes u 0 m 0 c c' -> (1 <= j)%nat -> nth_error nodes j = Some d -> f_code d <> tc_Struct ->
    nth_error c j = Some x -> (exists x', nth_error c' j = Some x' /\ keeps nodes j us x' y) -> keeps nodes j (u :: us) x y.
  Proof.
    intros OU OC (L & _ & _ & FD) J N NS EC (x' & EX & K). pose proof (nfields_flatten m) as NF. pose proof (ok_length u OU) as LU.
    assert (B : (j < List.length nodes)%nat) by (apply nth_error_Some; congruence).
    destruct (nth_error u j) as [(vu, su)|] eqn:EU; [|apply nth_error_None in EU; unfold cell in *; lia]. destruct x as (vc & sc).
    destruct (FD j d vu su vc sc) as (vn & sn & E & H); [lia|exact N|exact EU|exact EC|]. cbn [Nat.add] in *. unfold cell in *. rewrite EX in E. injection E as ->.
    replace (f_code d =? tc_Struct) with false in H by lia. destruct H as (H1 & H2). destruct (carried_dec m G (fun _ => True) (fun _ _ _ _ => Logic.I) u 0 j) as [CA|CA].
    - destruct (H1 CA) as (-> & ->). eapply k_set; eauto.
    - destruct (H2 CA) as (-> & ->). now apply k_same.
  Qed.
  Lemma acts_ok : (no_time m \/ exists k a b, time_at m k a b) -> forall l c, ok c -> Forall (sound_call m) l ->
    exists us c' al, acts F fp same HMailbox (Some (Val nodes c)) l = (Some (Val nodes c'), al) /\ updates m l us /\ Forall2 served l al /\ ok c' /\
      forall j d x, (1 <= j)%nat -> nth_error nodes j = Some d -> f_code d <> tc_Struct -> nth_error c j = Some x ->
        exists y, nth_error c' j = Some y /\ keeps nodes j us x y.
  Proof.
    intro TT. induction l as [|e l IH]; intros c OC SC.
    - exists [], c, []. split; [reflexivity|]. split; [constructor|]. split; [constructor|]. split; [exact OC|]. intros j d x J N NS E. exists x. split; [exact E|constructor].
    - inversion SC as [|? ? S1 S2]; subst. cbn [acts act]. destruct e as [v now subs| |v subs]; cbn [sound_call] in S1.
      + destruct S1 as (OV & TO). destruct v as (n & u). assert (n = nodes) by (exact (proj1 (proj2 OV))). subst n.
        destruct (stamp_ok u now OV TT TO) as (u' & SE & OU & TM). destruct (post_ok subs c u' OC OU) as (c1 & w & PE & AS & OC1 & _).
        destruct (IH c1 OC1 S2) as (us & c' & al & AE & UP & SV & OC' & KP). exists (u' :: us), c', (ADone :: al).
        unfold act, put. rewrite SE, PE, AE. split; [reflexivity|]. split; [now constructor|]. split; [constructor; [reflexivity|exact SV]|]. split; [exact OC'|].
        intros j d x J N NS E. destruct (nth_error c1 j) as [x1|] eqn:E1.
        2:{ apply nth_error_None in E1. pose proof (ok_length c1 OC1). assert (j < List.length nodes)%nat by (apply nth_error_Some; congruence). unfold cell in *. lia. }
        destruct (KP j d x1 J N NS E1) as (y & EY & K). exists y. split; [exact EY|]. exact (assigned_step j d u' c c1 x y us OU OC AS J N NS E (ex_intro _ x1 (conj E1 K))).
      + destruct (get_ok c OC) as (new & x & GE & _). destruct (IH c OC S2) as (us & c' & al & AE & UP & SV & OC' & KP).
        exists us, c', (AValue (Val nodes x) :: al). unfold act. rewrite GE, AE. split; [reflexivity|]. split; [now constructor|]. split; [constructor; [cbn; eauto|exact SV]|]. split; [exact OC'|exact KP].
      + destruct v as (n & u). assert (n = nodes) by (exact (proj1 (proj2 S1))). subst n. destruct (post_ok subs c u OC S1) as (c1 & w & PE & AS & OC1 & _).
        destruct (IH c1 OC1 S2) as (us & c' & al & AE & UP & SV & OC' & KP). exists (u :: us), c', (ADone :: al).
        unfold act. rewrite PE, AE. split; [reflexivity|]. split; [now constructor|]. split; [constructor; [reflexivity|exact SV]|]. split; [exact OC'|].
        intros j d x J N NS E. destruct (nth_error c1 j) as [x1|] eqn:E1.
        2:{ apply nth_error_None in E1. pose proof (ok_length c1 OC1). assert (j < List.length nodes)%nat by (apply nth_error_Some; congruence). unfold cell in *. lia. }
        destruct (KP j d x1 J N NS E1) as (y & EY & K). exists y. split; [exact EY|]. exact (assigned_step j d u c c1 x y us S1 OC AS J N NS E (ex_intro _ x1 (conj E1 K))).
  Qed.
  (** what a GET shows of a marked field *)
  Lemma get_field c new x j d s : ok c -> Forall2 (fun d x => fst x = false /\ initial d (snd x)) nodes new -> assigned nodes c 0 m 0 new x ->
    (1 <= j)%nat -> nth_error nodes j = Some d -> f_code d <> tc_Struct -> nth_error c j = Some (true, s) -> nth_error x j = Some (true, as_assigned s).
  Proof.
    intros OC IN (L & _ & _ & FD) J N NS EC. pose proof (nfields_flatten m) as NF. assert (LN : List.length nodes = List.length new) by (clear - IN; induction IN; cbn; congruence).
    assert (B : (j < List.length nodes)%nat) by (apply nth_error_Some; congruence).
    destruct (nth_error new j) as [(vo, so)|] eqn:EN; [|apply nth_error_None in EN; unfold cell in *; lia].
    destruct (FD j d true s vo so) as (vn & sn & E & H); [lia|exact N|exact EC|exact EN|]. cbn [Nat.add] in *.
    replace (f_code d =? tc_Struct) with false in H by lia. destruct H as (H1 & _). destruct H1 as (-> & ->); [|exact E].
    split; [|left; exists s; exact EC]. apply (proj2 (proj2 (proj2 (proj2 (struct_at_nodes m 0 m G root_at))))). lia.
  Qed.
End Box.
Lemma as_assigned_twice s : as_assigned (as_assigned s) = as_assigned s.
Proof. destruct s as [| | | | | | |a]; try reflexivity. destruct a as [|c l|l|l]; try reflexivity; now destruct l. Qed.
