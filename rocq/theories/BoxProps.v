(** C111: a mailbox PV keeps what clients put. *)
From Coq Require Import String ZArith List Bool Lia Arith.
From Verif Require Import Base WireModel TypeModel TypeSpec TypeProofs TypeNameProofs TypeProps FieldProofs ValueModel ValueSpec ValueTypeProofs MarkModel MarkSpec MarkProps CopyModel CopySpec CopyProofs CopyProps
  LookupModel LookupProofs ServerViewProofs NtProps BoxModel BoxSpec BoxProofs.
Import ListNotations.
Local Open Scope Z_scope.

(** Types for which the theorems hold: a structure without Union, whose timeStamp, if any, is the standard one. *)
Definition box_type (m : member) : Prop :=
  good_type m /\ m_code m = tc_Struct /\ no_union m /\ (no_time m \/ exists k a b, time_at m k a b).
(** A field which holds data. *)
Definition leaf (m : member) (j : nat) : Prop := (1 <= j)%nat /\ exists d, nth_error (flatten m) j = Some d /\ f_code d <> tc_Struct.

(** Whatever is put, posted and read, by whom and in what order: each PUT and post is done and each GET answered with a value, and each field holds
    what the last update which carries it has.  Updates are as sent, except for the time of a PUT which gives none. *)
Theorem C111_history_partial : forall fuel fp same m c l, exact_widening fp -> types_shared same -> box_type m ->
  value_of m (Val (flatten m) c) -> Forall (sound_call m) l ->
  exists us c' al, acts (2 + fuel) fp same HMailbox (Some (Val (flatten m) c)) l = (Some (Val (flatten m) c'), al) /\
    Forall2 served l al /\ updates m l us /\ value_of m (Val (flatten m) c') /\
    forall j x, leaf m j -> nth_error c j = Some x -> exists y, nth_error c' j = Some y /\ keeps (flatten m) j us x y.
Proof.
  intros fuel fp same m c l FW TS (G & ST & NU & TT) V SC.
  destruct (acts_ok fuel fp same m FW TS G ST NU TT l c V SC) as (us & c' & al & A & U & S & O & K). exists us, c', al.
  split; [exact A|]. split; [exact S|]. split; [exact U|]. split; [exact O|]. intros j x (J & d & N & NS) E. exact (K j d x J N NS E).
Qed.

(** A GET shows each field which was ever set as it is held, and all others as in a new value. *)
Theorem C111_get_partial : forall fuel fp same m c, exact_widening fp -> types_shared same -> box_type m -> value_of m (Val (flatten m) c) ->
  exists x, get (2 + fuel) fp same (Some (Val (flatten m) c)) = AValue (Val (flatten m) x) /\
    forall j d b s, leaf m j -> nth_error (flatten m) j = Some d -> nth_error c j = Some (b, s) ->
      (carried (flatten m) c 0 j -> nth_error x j = Some (true, as_assigned s)) /\
      (~ carried (flatten m) c 0 j -> exists s0, nth_error x j = Some (false, s0) /\ initial d s0).
Proof.
  intros fuel fp same m c FW TS (G & ST & NU & TT) V. destruct (get_ok fuel fp same m FW TS ST NU c V) as (new & x & GE & IN & (L & _ & _ & FD)).
  exists x. split; [exact GE|]. intros j d b s (J & d' & N' & NS) N E. rewrite N in N'. injection N' as <-.
  assert (B : (j < List.length (flatten m))%nat) by (apply nth_error_Some; congruence). pose proof (nfields_flatten m) as NF.
  assert (LN : List.length (flatten m) = List.length new) by (clear - IN; induction IN; cbn; congruence).
  destruct (nth_error new j) as [(vo, so)|] eqn:EN; [|apply nth_error_None in EN; unfold cell in *; lia].
  destruct (Forall2_nth _ _ _ j d (vo, so) IN N EN) as (I1 & I2). cbn [fst snd] in I1, I2. subst vo.
  destruct (FD j d b s false so) as (vn & sn & EX & H); [lia|exact N|exact E|exact EN|]. cbn [Nat.add] in *.
  replace (f_code d =? tc_Struct) with false in H by lia. destruct H as (H1 & H2). split.
  - intro CA. destruct (H1 CA) as (-> & ->). exact EX.
  - intro CA. destruct (H2 CA) as (-> & ->). exists so. auto.
Qed.

(** What subscribers are sent: of each field which the update carries its content, nothing else is marked, except structures. *)
Theorem C111_subscribers_partial : forall fuel fp same m c u now, exact_widening fp -> types_shared same -> box_type m ->
  value_of m (Val (flatten m) c) -> sound_call m (CPut (Val (flatten m) u) now true) ->
  exists u' c' x, timed m now u u' /\ put (2 + fuel) fp same HMailbox true (Some (Val (flatten m) c)) (Val (flatten m) u) now = (ADone, Some (Val (flatten m) c'), Some (Val (flatten m) x)) /\
    forall j b s, leaf m j -> nth_error u' j = Some (b, s) ->
      (carried (flatten m) u' 0 j -> nth_error x j = Some (true, as_assigned s)) /\ (~ carried (flatten m) u' 0 j -> ~ marked x j).
Proof.
  intros fuel fp same m c u now FW TS (G & ST & NU & TT) V (OV & TO).
  destruct (stamp_ok fuel fp same m G ST u now OV TT TO) as (u' & SE & OU & TM).
  destruct (post_ok fuel fp same m FW TS G ST NU true c u' V OU) as (c1 & w & PE & AS & OC1 & W).
  destruct (W eq_refl) as (new & x & -> & _ & IN & (L & _ & _ & FD)). exists u', c1, x. split; [exact TM|]. unfold put. change (2 + fuel)%nat with (S (S fuel)). rewrite SE, PE. split; [reflexivity|].
  intros j b s (J & d & N & NS) E. assert (B : (j < List.length (flatten m))%nat) by (apply nth_error_Some; congruence). pose proof (nfields_flatten m) as NF.
  assert (LN : List.length (flatten m) = List.length new) by (clear - IN; induction IN; cbn; congruence).
  destruct (nth_error new j) as [(vo, so)|] eqn:EN; [|apply nth_error_None in EN; unfold cell in *; lia].
  destruct (Forall2_nth _ _ _ j d (vo, so) IN N EN) as (I1 & I2). cbn [fst snd] in I1, I2. subst vo.
  destruct (FD j d b s false so) as (vn & sn & EX & H); [lia|exact N|exact E|exact EN|]. cbn [Nat.add] in *.
  replace (f_code d =? tc_Struct) with false in H by lia. destruct H as (H1 & H2). split.
  - intro CA. destruct (H1 CA) as (-> & ->). exact EX.
  - intro CA. destruct (H2 CA) as (-> & ->). intros (s' & E'). unfold cell in *. congruence.
Qed.


Lemma around_time m k a z d name i x : good_type m -> m_code m = tc_Struct -> field_at m [bs "timeStamp"] k d -> m_code d = tc_Struct -> field_at d [name] i x -> a = (k + i)%nat ->
  is_inside (flatten m) 0 z -> is_inside (flatten m) z a -> z = k.
Proof.
  intros G ST FK DS FI -> Z0 ZA. apply (root_inside_iff m z G) in Z0. destruct (field_at_total m z ltac:(lia)) as (p & e & FZ).
  destruct (field_inside_path m p z e _ G FZ ZA) as (q & f & Q & FQ & _).
  destruct (field_at_unique m _ _ _ (field_at_app m _ k d FK [name] i x DS FI) _ _ FQ) as (E & _). cbn [app] in E.
  destruct p as [|a [|b p]]; [inversion FZ| |destruct p, q; [now elim Q|discriminate..]]. assert (E1 : a = bs "timeStamp") by (now injection E). rewrite E1 in FZ.
  pose proof (child m _ _ _ G ST FZ) as H1. pose proof (child m _ _ _ G ST FK) as H2. rewrite H2 in H1. now injection H1.
Qed.
Lemma timed_carried m now u u' j b s : good_type m -> m_code m = tc_Struct -> timed m now u u' -> nth_error u j = Some (b, s) -> carried (flatten m) u 0 j ->
  carried (flatten m) u' 0 j /\ exists b', nth_error u' j = Some (b', s).
Proof.
  intros G ST T E CA. destruct T as [(_ & ->)|(k & a & b0 & TA & [(_ & ->)|(NG & sec & nsec & u1 & _ & (_ & A1 & A2) & (_ & B1 & B2))])]; [split; [exact CA|eauto]..|].
  destruct TA as (d & x & y & i & l & FK & DS & FI & _ & EA & FJ & _ & EB). assert (SA : struct_at m k d) by (split; [exact DS|right; eauto]).
  destruct (struct_at_nodes m k d G SA) as (_ & _ & _ & _ & KI).
  assert (IA : is_inside (flatten m) k a) by (subst a; apply KI; pose proof (field_at_bound _ _ _ _ FI); lia).
  assert (IB : is_inside (flatten m) k b0) by (subst b0; apply KI; pose proof (field_at_bound _ _ _ _ FJ); lia).
  assert (NM : forall z, marked u z -> z <> a /\ z <> b0).
  { intros z M. split; intros ->; apply NG; right; right; eauto. }
  assert (MU : forall z, marked u z -> marked u' z).
  { intros z M. destruct (NM z M) as (Z1 & Z2). destruct M as (q & M). exists q. unfold cell in *. rewrite B2, A2 by assumption. exact M. }
  assert (JN : j <> a /\ j <> b0).
  { split; intro EJ; rewrite EJ in CA; destruct CA as (_ & [M|(z & Z0 & M & ZI)]); try (destruct (NM _ M); congruence); apply NG; left.
    - rewrite <- (around_time m k a z d _ i x G ST FK DS FI EA Z0 ZI). exact M.
    - rewrite <- (around_time m k b0 z d _ l y G ST FK DS FJ EB Z0 ZI). exact M. }
  destruct JN as (J1 & J2). split.
  - destruct CA as (I & [M|(z & Z0 & M & ZI)]); split; auto. right. exists z. auto.
  - exists b. unfold cell in *. rewrite B2, A2 by assumption. exact E.
Qed.
Lemma acts_app fuel fp same h l2 : forall l1 cur, acts fuel fp same h cur (l1 ++ l2) =
  let '(c1, a1) := acts fuel fp same h cur l1 in let '(c2, a2) := acts fuel fp same h c1 l2 in (c2, a1 ++ a2).
Proof.
  induction l1 as [|c l1 IH]; intro cur; cbn [app acts]; [now destruct (acts _ _ _ _ cur l2)|]. destruct (act fuel fp same h cur c) as (c1 & a). rewrite IH.
  destruct (acts fuel fp same h c1 l1) as (c2 & a1). now destruct (acts fuel fp same h c2 l2).
Qed.
Lemma keeps_none nodes j us x y : Forall (fun u => ~ carried nodes u 0 j) us -> keeps nodes j us x y -> y = x.
Proof. intros N K. induction K as [x|u us x y b s E C K IH|u us x y C K IH]; [reflexivity|inversion N; contradiction|inversion N; auto]. Qed.

(** What is put can be read back: a GET after the PUT gives each field sent with its content, also if there were other calls since, none of
    which carries this field. *)
Theorem C111_put_get_partial : forall fuel fp same m c u now subs l j b s, exact_widening fp -> types_shared same -> box_type m -> value_of m (Val (flatten m) c) ->
  sound_call m (CPut (Val (flatten m) u) now subs) -> Forall (sound_call m) l ->
  leaf m j -> nth_error u j = Some (b, s) -> carried (flatten m) u 0 j ->
  (forall us, updates m l us -> Forall (fun u => ~ carried (flatten m) u 0 j) us) ->
  exists c' al x, acts (2 + fuel) fp same HMailbox (Some (Val (flatten m) c)) (CPut (Val (flatten m) u) now subs :: l ++ [CGet]) =
      (Some (Val (flatten m) c'), ADone :: al ++ [AValue (Val (flatten m) x)]) /\ nth_error x j = Some (true, as_assigned s).
Proof.
  intros fuel fp same m c u now subs l j b s FW TS BT V SC SL LF E CA NC. pose proof BT as (G & ST & NU & TT). destruct LF as (J & d & N & NS).
  destruct SC as (OV & TO). destruct (stamp_ok fuel fp same m G ST u now OV TT TO) as (u' & SE & OU & TM).
  destruct (post_ok fuel fp same m FW TS G ST NU subs c u' V OU) as (c1 & w & PE & AS & OC1 & _).
  destruct (timed_carried m now u u' j b s G ST TM E CA) as (CA' & b' & E').
  destruct (acts_ok fuel fp same m FW TS G ST NU TT l c1 OC1 SL) as (us & c' & al & A & U & SV & O & K).
  destruct (get_ok fuel fp same m FW TS ST NU c' O) as (new & x & GE & IN & XS).
  exists c', al, x. cbn [acts act]. unfold put. change (2 + fuel)%nat with (S (S fuel)). rewrite SE, PE, acts_app, A. cbn [acts act]. rewrite GE. split; [reflexivity|].
  assert (B : (j < List.length (flatten m))%nat) by (apply nth_error_Some; congruence). pose proof (nfields_flatten m) as NF.
  pose proof (ok_length m c V) as LC.
  destruct (nth_error c j) as [(v0, s0)|] eqn:EC; [|apply nth_error_None in EC; unfold cell in *; lia].
  destruct AS as (_ & _ & _ & FD). destruct (FD j d b' s v0 s0) as (vn & sn & E1 & H); [lia|exact N|exact E'|exact EC|]. cbn [Nat.add] in *.
  replace (f_code d =? tc_Struct) with false in H by lia. destruct H as (H1 & _). destruct (H1 CA') as (-> & ->).
  destruct (K j d _ J N NS E1) as (y & EY & KY). rewrite (keeps_none _ _ _ _ _ (NC us U) KY) in EY.
  rewrite <- (as_assigned_twice s). exact (get_field m G ST c' new x j d _ O IN XS J N NS EY).
Qed.

(** A read-only PV: whatever clients do, its value stays what the application posted, and every PUT is answered with an error. *)
Theorem C111_readonly : forall fuel fp same h cur v now subs, h = HReadonly \/ h = HMissing ->
  put fuel fp same h subs cur v now = (AError, cur, None).
Proof. intros fuel fp same h cur v now subs [-> | ->]; reflexivity. Qed.
Theorem C111_readonly_history : forall fuel fp same h cur l, h = HReadonly \/ h = HMissing -> (forall v subs, ~ In (CPost v subs) l) ->
  exists al, acts fuel fp same h cur l = (cur, al) /\ Forall2 (fun c a => c <> CGet -> a = AError) l al.
Proof.
  intros fuel fp same h cur l HH. induction l as [|c l IH]; intro NP; [exists []; split; [reflexivity|constructor]|].
  destruct IH as (al & A & S); [intros v subs H; exact (NP v subs (or_intror H))|]. destruct c as [v now subs| |v subs].
  - exists (AError :: al). cbn [acts act]. rewrite (C111_readonly fuel fp same h cur v now subs HH), A. split; [reflexivity|]. constructor; auto.
  - exists (get fuel fp same cur :: al). cbn [acts act]. rewrite A. split; [reflexivity|]. constructor; [intro X; now elim X|exact S].
  - elim (NP v subs). now left.
Qed.

(** ** Where it does not hold *)
Definition odd_type : member := Mem tc_Struct [] [] [Mem tc_Int32 (bs "value"%string) [] []; Mem tc_Int64 (bs "timeStamp"%string) [] []].
Definition odd_put : value := Val (flatten odd_type) [(false, SNull); (true, SInt 5); (false, SInt 0)].
(** A mailbox whose type has a field timeStamp which is not the standard structure: a PUT of another field, here of "value" of
    {int32 value; int64 timeStamp}, is never answered, and nothing is stored. *)
Theorem C111_odd_time_refuted : exists m v, good_type m /\ value_of m v /\ forall fuel fp same subs cur t,
  put (3 + fuel) fp same HMailbox subs cur v (Some t) = (ANone, cur, None).
Proof.
  assert (G : good_type odd_type).
  { split; [reflexivity|]. split.
    - cbn. repeat split; intros _; repeat constructor; cbn; try tauto; intro H; repeat (destruct H as [H|H]; [discriminate H|]); exact H.
    - cbn. unfold no_dot. repeat split; intro H; cbn in H; repeat (destruct H as [H|H]; [discriminate H|]); exact H. }
  exists odd_type, odd_put. split; [exact G|]. split.
  { split; [exact G|]. split; [reflexivity|]. constructor. constructor; [now constructor|].
    constructor; [apply ok_int with (n := 4%nat); [reflexivity|unfold signed_in; cbn; lia]|]. constructor; [|constructor]. apply ok_int with (n := 8%nat); [reflexivity|unfold signed_in; cbn; lia]. }
  intros fuel fp same subs cur (sec & nsec). reflexivity.
Qed.
(** A handler of the application which throws, for example after it has looked at the value: the client is never told. *)
Theorem C111_throws_refuted : forall fuel fp same subs cur v now, put fuel fp same HThrows subs cur v now = (ANone, cur, None).
Proof. reflexivity. Qed.

(** ** Example: a PUT of "value", and one with a time, to a PV like NTScalar *)
Definition box_time : member :=
  Mem tc_Struct (bs "timeStamp"%string) [] [Mem tc_Int64 (bs "secondsPastEpoch"%string) [] []; Mem tc_Int32 (bs "nanoseconds"%string) [] []; Mem tc_Int32 (bs "userTag"%string) [] []].
Definition box_ex : member := Mem tc_Struct [] [] [Mem tc_Int32 (bs "value"%string) [] []; box_time].
Definition bx (v : bool * Z) (s n t : bool * Z) : list cell :=
  [(false, SNull); (fst v, SInt (snd v)); (false, SNull); (fst s, SInt (snd s)); (fst n, SInt (snd n)); (fst t, SInt (snd t))].
Lemma bx_value v s n t : signed_in 4 (snd v) -> signed_in 8 (snd s) -> signed_in 4 (snd n) -> signed_in 4 (snd t) -> value_of box_ex (Val (flatten box_ex) (bx v s n t)).
Proof.
  intros V S N T. split; [|split; [reflexivity|]].
  - split; [reflexivity|]. split.
    + cbn. repeat split; intros _; repeat constructor; cbn; try tauto; intro H; repeat (destruct H as [H|H]; [discriminate H|]); exact H.
    + cbn. unfold no_dot. repeat split; intro H; cbn in H; repeat (destruct H as [H|H]; [discriminate H|]); exact H.
  - constructor. constructor; [now constructor|]. constructor; [apply ok_int with (n := 4%nat); [reflexivity|exact V]|]. constructor; [now constructor|].
    constructor; [apply ok_int with (n := 8%nat); [reflexivity|exact S]|]. constructor; [apply ok_int with (n := 4%nat); [reflexivity|exact N]|].
    constructor; [apply ok_int with (n := 4%nat); [reflexivity|exact T]|constructor].
Qed.
Definition bx_calls : list call :=
  [CPut (Val (flatten box_ex) (bx (true, 5) (false, 0) (false, 0) (false, 0))) (Some (100, 7)) true;
   CPost (Val (flatten box_ex) (bx (true, 6) (false, 0) (false, 0) (true, 3))) false;
   CPut (Val (flatten box_ex) (bx (false, 0) (true, 9) (false, 0) (false, 0))) (Some (200, 8)) false; CGet].
Example C111_example : exact_widening no_fpu /\ types_shared (fun _ _ => true) /\ box_type box_ex /\
  value_of box_ex (Val (flatten box_ex) (bx (false, 0) (false, 0) (false, 0) (false, 0))) /\ Forall (sound_call box_ex) bx_calls /\
  leaf box_ex 1 /\
  acts 3 no_fpu (fun _ _ => true) HMailbox (Some (Val (flatten box_ex) (bx (false, 0) (false, 0) (false, 0) (false, 0)))) bx_calls =
    (Some (Val (flatten box_ex) (bx (true, 6) (true, 9) (true, 7) (true, 3))),
     [ADone; ADone; ADone; AValue (Val (flatten box_ex) (bx (true, 6) (true, 9) (true, 7) (true, 3)))]).
Proof.
  assert (R : forall z, 0 <= z < 1000 -> signed_in 4 z /\ signed_in 8 z) by (intros z Z; unfold signed_in; cbn; lia).
  assert (B : forall v s n t, 0 <= snd v < 1000 -> 0 <= snd s < 1000 -> 0 <= snd n < 1000 -> 0 <= snd t < 1000 -> value_of box_ex (Val (flatten box_ex) (bx v s n t))).
  { intros v s n t V S N T. apply bx_value; now apply R. }
  split; [intros x _; reflexivity|]. split; [intro; reflexivity|]. split; [|split; [apply B; cbn; lia|split; [|split]]].
  - split; [exact (proj1 (bx_value (false, 0) (false, 0) (false, 0) (false, 0) (proj1 (R 0 ltac:(lia))) (proj2 (R 0 ltac:(lia))) (proj1 (R 0 ltac:(lia))) (proj1 (R 0 ltac:(lia)))))|].
    split; [reflexivity|]. split; [unfold no_union; cbn; repeat constructor; discriminate|]. right. exists 2%nat, 3%nat, 4%nat.
    exists box_time, (Mem tc_Int64 (bs "secondsPastEpoch"%string) [] []), (Mem tc_Int32 (bs "nanoseconds"%string) [] []), 1%nat, 2%nat.
    split; [refine (fa_child box_ex [Mem tc_Int32 (bs "value"%string) [] []] _ [] eq_refl eq_refl)|]. split; [reflexivity|].
    split; [refine (fa_child box_time [] _ [_; _] eq_refl eq_refl)|]. split; [reflexivity|]. split; [reflexivity|].
    split; [refine (fa_child box_time [Mem tc_Int64 (bs "secondsPastEpoch"%string) [] []] _ [_] eq_refl eq_refl)|]. split; reflexivity.
  - unfold bx_calls. repeat (apply Forall_cons || apply Forall_nil); cbn [sound_call]; try exact Logic.I; try (apply B; cbn; lia); (split; [apply B; cbn; lia|]); intros t H; injection H as <-; unfold time_ok; cbn; lia.
  - split; [lia|]. eexists. split; [reflexivity|discriminate].
  - vm_compute. reflexivity.
Qed.

Print Assumptions C111_history_partial.
Print Assumptions C111_get_partial.
Print Assumptions C111_subscribers_partial.
Print Assumptions C111_put_get_partial.
Print Assumptions C111_readonly.
Print Assumptions C111_readonly_history.
Print Assumptions C111_odd_time_refuted.
Print Assumptions C111_throws_refuted.
