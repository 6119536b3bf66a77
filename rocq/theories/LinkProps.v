(** PVA links: C102, C103, C104, C105, C106 and C107. *)
From Coq Require Import String ZArith List Bool Arith Lia Sorted.
From Verif Require Import Base BaseProofs WireModel TypeModel TextModel ValueModel CopyModel GroupModel LinkModel LinkSpec LinkProofs1 LinkProofs2 LinkProofs3 LinkProofs4 LinkProofs5 LinkProofs6 LinkProofs7 LinkProofs8 LinkProofs9 LinkProofs10 LinkProofs11 LinkProofs12.
Import ListNotations.
Local Open Scope Z_scope.

(** ** C102: options *)

(** Each option of a link has the value of the last member of the JSON map which sets it to
    something with a meaning, else its default, for all maps. *)
Theorem C102_options : forall m, let cf := parse (calls (VMap m)) in
  cf_name cf = last_of "pv" a_string [] m /\ cf_field cf = last_of "field" a_string [] m /\
  cf_proc cf = last_of "proc" a_proc PDefault m /\ cf_sevr cf = last_of "sevr" a_sevr NMS m /\ cf_queue cf = last_of "Q" a_queue 4 m /\
  cf_defer cf = last_of "defer" a_bool false m /\ cf_pipeline cf = last_of "pipeline" a_bool false m /\ cf_time cf = last_of "time" a_bool false m /\
  cf_retry cf = last_of "retry" a_bool false m /\ cf_always cf = last_of "always" a_bool false m /\ cf_atomic cf = last_of "atomic" a_bool false m /\
  cf_local cf = last_of "local" a_local false m /\ (orders_fit m -> cf_order cf = last_of "monorder" a_order 0 m).
Proof.
  intros m cf. unfold cf.
  split; [exact (option_last cf_name "pv" a_string o_name m)|]. split; [exact (option_last cf_field "field" a_string o_field m)|].
  split; [exact (option_last cf_proc "proc" a_proc o_proc m)|]. split; [exact (option_last cf_sevr "sevr" a_sevr o_sevr m)|]. split; [exact (option_last cf_queue "Q" a_queue o_queue m)|].
  split; [exact (option_last cf_defer "defer" a_bool o_defer m)|]. split; [exact (option_last cf_pipeline "pipeline" a_bool o_pipeline m)|]. split; [exact (option_last cf_time "time" a_bool o_time m)|].
  split; [exact (option_last cf_retry "retry" a_bool o_retry m)|]. split; [exact (option_last cf_always "always" a_bool o_always m)|]. split; [exact (option_last cf_atomic "atomic" a_bool o_atomic m)|].
  split; [exact (option_last cf_local "local" a_local o_local m)|]. exact (order_last m).
Qed.
(** A link which is only a string is a PV name with default options. *)
Theorem C102_name_only : forall s, let cf := parse (calls (VStr s)) in
  cf_name cf = s /\ cf_field cf = [] /\ cf_proc cf = PDefault /\ cf_sevr cf = NMS /\ cf_queue cf = 4 /\ cf_defer cf = false /\ cf_pipeline cf = false /\
  cf_time cf = false /\ cf_retry cf = false /\ cf_always cf = false /\ cf_atomic cf = false /\ cf_local cf = false /\ cf_order cf = 0.
Proof. intros s. cbn. repeat split; reflexivity. Qed.
Definition lk_json : list (str * json) :=
  [(bs "pv", VStr (bs "a")); (bs "proc", VStr (bs "CP")); (bs "x", VMap [(bs "pv", VStr (bs "b")); (bs "proc", VBool true)]); (bs "sevr", VStr (bs "MSS")); (bs "monorder", VInt 5000);
   (bs "proc", VStr (bs "other")); (bs "Q", VInt 0); (bs "retry", VBool true)].
Example C102_options_ex : orders_fit lk_json /\
  (let cf := parse (calls (VMap lk_json)) in (cf_name cf, cf_proc cf, cf_sevr cf, cf_order cf, cf_queue cf, cf_retry cf)) = (bs "a", CP, MS, 1024, 1, true).
Proof.
  split; [|vm_compute; reflexivity]. intros z H. unfold lk_json in H. cbn [In] in H.
  repeat (destruct H as [H|H]; [try discriminate H; injection H as H; try discriminate H; subst z; lia|]). contradiction.
Qed.
(** The range of monorder is not kept: a large one may become the smallest, or any other. *)
Theorem C102_order_refuted : exists m, ~ cf_order (parse (calls (VMap m))) = last_of "monorder" a_order 0 m.
Proof. exists [(bs "monorder", VInt 2147483648)]. vm_compute. discriminate. Qed.
(** A large Q asks the server for a queue of 0. *)
Theorem C102_queue_refuted : exists m, let cf := parse (calls (VMap m)) in 1 <= cf_queue cf /\ snd (snd (request cf)) < 1.
Proof. exists [(bs "Q", VInt 4294967296)]. vm_compute. split; [discriminate|reflexivity]. Qed.

(** ** An example *)

Definition lk_fpu : fpu :=
  Build_fpu (fun z => z) (fun z => z) (fun z => Some z) (fun z => negb (z =? 0)) (fun z => z) (fun z => z) (fun _ => []) (fun _ => []) (fun _ => None).
Definition lk_node (c : Z) (s : src) : node := {| nd_code := c; nd_id := []; nd_data := s |}.
Definition lk_img (l : list (list string * node)) : img := fun p =>
  match find (fun q => if list_eq_dec (list_eq_dec Z.eq_dec) (map bs (fst q)) p then true else false) l with Some q => Some (snd q) | None => None end.
Definition lk_value (z : Z) : img := lk_img
  [([], lk_node tc_Struct PNull); (["value"%string], lk_node tc_Int32 (PInt z)); (["timeStamp"%string], lk_node tc_Struct PNull);
   (["timeStamp"; "secondsPastEpoch"]%string, lk_node tc_Int64 (PInt 631152005)); (["timeStamp"; "nanoseconds"]%string, lk_node tc_Int32 (PInt 7));
   (["alarm"%string], lk_node tc_Struct PNull); (["alarm"; "severity"]%string, lk_node tc_Int32 (PInt 2)); (["alarm"; "message"]%string, lk_node tc_String (PStr (bs "hot")))].
Definition lk_update (i : img) : mev := MUpdate {| up_img := i; up_marked := fun _ => true |}.
Definition lk_only (i : img) (p : list string) : mev := MUpdate {| up_img := i; up_marked := fun q => if list_eq_dec (list_eq_dec Z.eq_dec) (map bs p) q then true else false |}.
Definition lk_conf : conf := parse (calls (VMap [(bs "pv", VStr (bs "a")); (bs "proc", VStr (bs "CP")); (bs "sevr", VStr (bs "MS")); (bs "time", VBool true)])).
Definition lk_start : list event := [EOpen 0 lk_conf KIn 10 false; EOpen 1 (with_order (-1) lk_conf) KIn 11 false; EInit; ENet 0 (lk_update (lk_value 300)); EWork; ENet 0 (lk_only (lk_value 5) ["value"%string]); EWork].

(** ** C103: reading *)

Fixpoint lk_join (l : list str) : str := match l with [] => [] | [n] => n | n :: r => n ++ 46 :: lk_join r end.
(** A record which reads a link of a connected PV gets the value after all updates which were
    taken, converted as [gives] says, the time of the value if the option says so, and an alarm
    as the option sevr says. *)
Theorem C103_read : forall fp h x i l c w t n b m tm sev,
  reached fp h x -> x_links x i = Some l -> l_chan l = Some c -> latest (taken c (x_out x)) = Some w -> is_struct (field_at w (l_conf l)) = true ->
  gives fp w (l_conf l) t n b m -> time_is w (l_conf l) tm -> severity_is w (l_conf l) sev ->
  exists y, step fp x (EGet i t n) = Some y /\
    x_out y = x_out x ++ alarm_for (cf_sevr (l_conf l)) (l_rec l) sev ++ (if cf_time (l_conf l) then [OTime (l_rec l) tm] else []) ++ [OGet i SOk b m].
Proof. exact reading. Qed.
(** While not connected a read fails and the record gets an INVALID alarm. *)
Theorem C103_not_connected : forall fp h x i l c t n, reached fp h x -> x_links x i = Some l -> l_chan l = Some c -> latest (taken c (x_out x)) = None ->
  exists y tm, step fp x (EGet i t n) = Some y /\ x_out y = x_out x ++ [OSevr (l_rec l) 3] ++ (if cf_time (l_conf l) then [OTime (l_rec l) tm] else []) ++ [OGet i SFail BNone (match n with Some z => z | None => 1 end)].
Proof. intros fp h x i l c t n R L C W. destruct (reading_off fp h x i l c t n R L C W) as (y & S & O). exists y, (s_time l). split; assumption. Qed.
(** After the worker has taken a disconnect, its time is what each link gives. *)
Theorem C103_disconnect_time : forall fp h x y z i l c s ns r t n, reached fp h x -> x_links x i = Some l -> l_chan l = Some c -> cf_time (l_conf l) = true ->
  step fp x EWork = Some y -> x_out y = x_out x ++ OEvent c (MDisconnect s ns) :: r -> step fp y (EGet i t n) = Some z ->
  x_out z = x_out y ++ [OSevr (l_rec l) 3; OTime (l_rec l) (s, ns); OGet i SFail BNone (match n with Some z => z | None => 1 end)].
Proof.
  intros fp h x y z i l c s ns r t n R L C T S O G. pose proof (inv_reached _ _ _ R) as IV. cbn [step] in S. injection S as <-.
  destruct (work_cases x IV) as [[_ E]|[(t' & r' & _ & _ & Q & _)|(d & r' & k & e & es & TT & K & NE & EV & W)]].
  - rewrite E in O. exfalso. apply (f_equal (@length _)) in O. rewrite app_length in O. cbn in O. lia.
  - pose proof (q_taken _ _ Q c) as TK. rewrite O, taken_app in TK. cbn in TK. destruct (Nat.eq_dec c c); [|contradiction]. apply (f_equal (@length _)) in TK. rewrite app_length in TK. cbn in TK. lia.
  - cbv zeta in W. destruct W as (_ & A2 & _ & _ & _ & A6 & _). rewrite A6 in O. apply app_inv_head in O. injection O as -> -> _.
    destruct (i_att _ IV _ _ _ L C) as (k0 & K0 & I0). rewrite K in K0. injection K0 as <-. apply existsb_in in I0.
    assert (L' : x_links (work x) i = Some (l_with_put None None (l_with_snap (s, ns) (s_sevr l) (s_msg l) l))) by (rewrite A2, L; cbn [option_map]; unfold retyped; cbn [k_with_events k_links]; rewrite I0; reflexivity).
    assert (R' : reached fp (h ++ [EWork]) (work x)) by (unfold reached in *; rewrite run_app, R; reflexivity).
    destruct (reading_off fp _ (work x) i _ c t n R' L' C) as (z' & G' & O').
    + rewrite A6, taken_app. cbn [taken]. destruct (Nat.eq_dec c c); [|contradiction]. rewrite processing_taken, latest_snoc. reflexivity.
    + rewrite G in G'. injection G' as <-. cbn in O'. rewrite T in O'. exact O'.
Qed.
(** Names of fields are separated by dots. *)
Theorem C103_path : forall names, (forall n, In n names -> ~ In 46 n) -> names <> [[]] -> path_of (lk_join names) = names.
Proof.
  intros names H N. unfold path_of. assert (E : names <> [] -> split_dot (lk_join names) = names).
  { assert (D : forall n t, ~ In 46 n -> split_dot (n ++ 46 :: t) = n :: split_dot t).
    { intros n t. induction n as [|z n IHn]; intros I0; [reflexivity|]. cbn [app split_dot]. destruct (Z.eqb_spec z 46) as [-> |NZ]; [contradiction I0; left; reflexivity|]. rewrite (IHn (fun X => I0 (or_intror X))). reflexivity. }
    assert (L : forall n, ~ In 46 n -> split_dot n = [n]). { induction n as [|z n IHn]; intros I0; [reflexivity|]. cbn [split_dot]. destruct (Z.eqb_spec z 46) as [-> |NZ]; [contradiction I0; left; reflexivity|]. rewrite (IHn (fun X => I0 (or_intror X))). reflexivity. }
    clear N. induction names as [|n r IH]; [contradiction|]. intros _. destruct r as [|m r]; [apply L; apply H; left; reflexivity|]. change (lk_join (n :: m :: r)) with (n ++ 46 :: lk_join (m :: r)).
    rewrite D by (apply H; left; reflexivity). rewrite IH; [reflexivity|intros q Q; apply H; right; exact Q|discriminate]. }
  destruct names as [|n r]; [reflexivity|]. specialize (E ltac:(discriminate)). destruct (lk_join (n :: r)) as [|z t] eqn:J; [|exact E].
  exfalso. destruct n; [|destruct r; discriminate J]. destruct r; [contradiction N; reflexivity|discriminate J].
Qed.
Example C103_path_ex : path_of (bs "a.b..c") = [bs "a"; bs "b"; []; bs "c"] /\ lk_join [bs "a"; bs "b"; []; bs "c"] = bs "a.b..c".
Proof. split; vm_compute; reflexivity. Qed.
Example C103_read_ex : exists x l w, reached lk_fpu lk_start x /\ x_links x 0%nat = Some l /\ l_chan l = Some 0%nat /\ latest (taken 0 (x_out x)) = Some w /\ is_struct (field_at w (l_conf l)) = true /\
  gives lk_fpu w (l_conf l) DChar None (BNums DChar [5]) 1 /\ time_is w (l_conf l) (5, 7) /\ severity_is w (l_conf l) 2.
Proof.
  assert (E : match run lk_fpu start lk_start with Some x => match x_links x 0%nat with Some l => Some (l_chan l, cf_field (l_conf l), l_conf l, match latest (taken 0 (x_out x)) with Some w => Some (w [], w [bs "value"], w [bs "timeStamp"; bs "secondsPastEpoch"], w [bs "timeStamp"; bs "nanoseconds"], w [bs "alarm"; bs "severity"], w [bs "alarm"; bs "message"]) | None => None end) | None => None end | None => None end =
    Some (Some 0%nat, [], lk_conf, Some (Some (lk_node tc_Struct PNull), Some (lk_node tc_Int32 (PInt 5)), Some (lk_node tc_Int64 (PInt 631152005)), Some (lk_node tc_Int32 (PInt 7)), Some (lk_node tc_Int32 (PInt 2)), Some (lk_node tc_String (PStr (bs "hot")))))) by (vm_compute; reflexivity).
  destruct (run lk_fpu start lk_start) as [x|] eqn:R; [|discriminate E]. destruct (x_links x 0%nat) as [l|] eqn:L; [|discriminate E]. destruct (latest (taken 0 (x_out x))) as [w|] eqn:W; [|discriminate E].
  injection E as C F _ E1 E2 E3 E4 E5 E6. exists x, l, w. split; [exact R|]. split; [exact L|]. split; [exact C|]. split; [exact W|].
  assert (P : path_of (cf_field (l_conf l)) = []) by (rewrite F; reflexivity).
  assert (ST : is_struct (field_at w (l_conf l)) = true) by (unfold field_at; rewrite P, E1; reflexivity). split; [exact ST|].
  assert (PT : forall q, part w (l_conf l) q = w (map bs q)) by (intros q; unfold part; rewrite ST, P; reflexivity).
  split; [|split].
  - apply (g_int lk_fpu w (l_conf l) DChar None (lk_node tc_Int32 (PInt 5)) 5 5 1).
    + unfold value_at. rewrite ST, P. exact E2.
    + split; [reflexivity|]. split; discriminate.
    + left. reflexivity.
    + split; [reflexivity|lia].
    + cbn. split; [lia|]. exists 0. reflexivity.
  - right. exists 631152005, 7. split; [|split; [right|reflexivity]].
    + rewrite PT. exists (lk_node tc_Int64 (PInt 631152005)). split; [exact E3|left; reflexivity].
    + rewrite PT. exists (lk_node tc_Int32 (PInt 7)). split; [exact E4|left; reflexivity].
  - split; [right|split; [lia|right]].
    + rewrite PT. exists (lk_node tc_Int32 (PInt 2)). split; [exact E5|left; reflexivity].
    + rewrite PT. exists (lk_node tc_String (PStr (bs "hot"))), (bs "hot"). split; [exact E6|reflexivity].
Qed.
Definition lk_outs (h : list event) : option (list out) := match run lk_fpu start h with Some x => Some (x_out x) | None => None end.
Example C103_read_ex2 : match lk_outs lk_start, lk_outs (lk_start ++ [EGet 0 DChar None]) with Some a, Some b => skipn (length a) b | _, _ => [] end = [OSevr 10 2; OTime 10 (5, 7); OGet 0 SOk (BNums DChar [5]) 1].
Proof. vm_compute. reflexivity. Qed.
(** A field which the PV does not have: a record which asks for an array is told that this
    went well, and nothing is put in its buffer. *)
Theorem C103_missing_refuted : exists h x y i l, reached lk_fpu h x /\ x_links x i = Some l /\ cf_field (l_conf l) <> [] /\
  (exists w, latest (taken 0 (x_out x)) = Some w /\ field_at w (l_conf l) = None) /\ step lk_fpu x (EGet i DLong (Some 3)) = Some y /\ In (OGet i SOk BNone 3) (x_out y).
Proof.
  set (h := [EOpen 0 (with_field (bs "none") lk_conf) KIn 10 false; EInit; ENet 0 (lk_update (lk_value 300)); EWork]).
  assert (E : match run lk_fpu start h with Some x => match x_links x 0%nat, latest (taken 0 (x_out x)), step lk_fpu x (EGet 0 DLong (Some 3)) with Some l, Some w, Some y => Some (cf_field (l_conf l), w [bs "none"], hd_error (rev (x_out y))) | _, _, _ => None end | None => None end
    = Some (bs "none", None, Some (OGet 0 SOk BNone 3))) by (vm_compute; reflexivity).
  destruct (run lk_fpu start h) as [x|] eqn:R; [|discriminate E]. destruct (x_links x 0%nat) as [l|] eqn:L; [|discriminate E].
  destruct (latest (taken 0 (x_out x))) as [w|] eqn:W; [|discriminate E]. destruct (step lk_fpu x (EGet 0 DLong (Some 3))) as [y|] eqn:S; [|discriminate E].
  injection E as F N O. exists h, x, y, 0%nat, l. split; [exact R|]. split; [exact L|]. split; [rewrite F; discriminate|]. split; [exists w; split; [exact W|unfold field_at; rewrite F; exact N]|]. split; [exact S|].
  apply in_rev. destruct (rev (x_out y)); [discriminate O|]. injection O as ->. left. reflexivity.
Qed.
(** A field which was a structure and is none after the PV has come back with another type: the
    record gets the time of the old value with the new value. *)
Theorem C103_stale_time_refuted : exists h x y l w, reached lk_fpu h x /\ x_links x 0%nat = Some l /\ latest (taken 0 (x_out x)) = Some w /\ time_is w (l_conf l) (0, 0) /\ option_map nd_data (value_at w (l_conf l)) = Some (PInt 2) /\
  step lk_fpu x (EGet 0 DLong None) = Some y /\ x_out y = x_out x ++ [OTime 10 (5, 0); OGet 0 SOk (BNums DLong [2]) 1].
Proof.
  set (h := [EOpen 0 (with_field (bs "f") lk_conf) KIn 10 false; EInit;
             ENet 0 (lk_update (lk_img [([], lk_node tc_Struct PNull); (["f"%string], lk_node tc_Struct PNull); (["f"; "value"]%string, lk_node tc_Int32 (PInt 1)); (["f"; "timeStamp"; "secondsPastEpoch"]%string, lk_node tc_Int64 (PInt 631152005))])); EWork;
             ENet 0 (MDisconnect 1 2); EWork; ENet 0 (lk_update (lk_img [([], lk_node tc_Struct PNull); (["f"%string], lk_node tc_Int32 (PInt 2))])); EWork]).
  assert (E : match run lk_fpu start h with Some x => match x_links x 0%nat, latest (taken 0 (x_out x)), step lk_fpu x (EGet 0 DLong None) with Some l, Some w, Some y => Some (part w (l_conf l) ["timeStamp"; "secondsPastEpoch"]%string, option_map nd_data (value_at w (l_conf l)), skipn (length (x_out x)) (x_out y), length (x_out x)) | _, _, _ => None end | None => None end
    = Some (None, Some (PInt 2), [OTime 10 (5, 0); OGet 0 SOk (BNums DLong [2]) 1], 13%nat)) by (vm_compute; reflexivity).
  destruct (run lk_fpu start h) as [x|] eqn:R; [|discriminate E]. destruct (x_links x 0%nat) as [l|] eqn:L; [|discriminate E].
  destruct (latest (taken 0 (x_out x))) as [w|] eqn:W; [|discriminate E]. destruct (step lk_fpu x (EGet 0 DLong None)) as [y|] eqn:S; [|discriminate E].
  injection E as F N O _. exists h, x, y, l, w. split; [exact R|]. split; [exact L|]. split; [exact W|]. split; [left; split; [exact F|reflexivity]|]. split; [exact N|]. split; [exact S|].
  rewrite <- O. assert (P : exists o, x_out y = x_out x ++ o). { cbn [step] in S. unfold get_value in S. rewrite L in S. destruct (chan_of 0 x) as [[[l0 c] k]|]; [|discriminate S]. destruct (negb _); [injection S as <-; eexists; reflexivity|].
    destruct (read_value _ _ _ _ _) as [[[b m]|[]]|]; try discriminate S; try (injection S as <-; eexists; reflexivity). destruct (read_snap _ _ _) as [[[z e] g]|[]]; try discriminate S; injection S as <-; eexists; reflexivity. }
  destruct P as (o & P). rewrite P, skipn_app, skipn_all, Nat.sub_diag. reflexivity.
Qed.

(** ** C104: processing *)

(** When the worker takes an event of a PV, the records of all links of it with the option CP, or
    CPP if they are passive, are processed once for each such link, in the order of monorder; those with
    the option atomic while all of them are locked. *)
Theorem C104_processing : forall fp h x y c e r, reached fp h x -> step fp x EWork = Some y -> x_out y = x_out x ++ OEvent c e :: r ->
  exists is, the_links x c is /\ r = processing x is.
Proof.
  intros fp h x y c e r R S O. pose proof (inv_reached _ _ _ R) as IV. cbn [step] in S. apply some_inj in S. subst y.
  destruct (work_cases x IV) as [[_ E]|[(t' & r' & _ & _ & Q & _)|(d & r' & k & e' & es & TT & K & NE & EV & W)]].
  - rewrite E in O. exfalso. apply (f_equal (@length _)) in O. rewrite app_length in O. cbn in O. lia.
  - pose proof (q_taken _ _ Q c) as TK. rewrite O, taken_app in TK. cbn in TK. destruct (Nat.eq_dec c c); [|contradiction]. apply (f_equal (@length _)) in TK. rewrite app_length in TK. cbn in TK. lia.
  - cbv zeta in W. destruct W as (_ & _ & _ & _ & _ & A6 & _). rewrite A6 in O. apply app_inv_head in O. injection O as -> -> <-.
    exists (k_links k). split; [exact (links_are x c k IV K)|reflexivity].
Qed.
(** Events are taken in the order in which they come, none is left out or comes twice. *)
Theorem C104_order : forall fp h x i c, reached fp h x -> attached x i c -> exists rest, queued fp c start h = taken c (x_out x) ++ rest.
Proof. intros fp h x i c R A. destruct (account fp h x i c R A) as (k & _ & E). exists (k_events k). symmetry. exact E. Qed.
(** and all of them are taken, if only the worker goes on. *)
Theorem C104_all : forall fp h x i c, reached fp h x -> attached x i c ->
  exists m y, run fp x (repeat EWork m) = Some y /\ taken c (x_out y) = queued fp c start h.
Proof. intros fp h x i c R A. destruct (taken_all fp h x i c R A) as (m & y & Y & _ & E). exists m, y. split; assumption. Qed.
Example C104_processing_ex : match lk_outs lk_start with Some o => map (fun p => match p with OEvent c _ => OSub c ([], (false, 0)) | _ => p end) (skipn 1 o) | None => [] end =
  [OSub 0 ([], (false, 0)); OLock [11%nat]; OProc 11; OUnlock [11%nat]; OLock [10%nat]; OProc 10; OUnlock [10%nat];
   OSub 0 ([], (false, 0)); OLock [11%nat]; OProc 11; OUnlock [11%nat]; OLock [10%nat]; OProc 10; OUnlock [10%nat]].
Proof. vm_compute. reflexivity. Qed.
Example C104_all_ex : exists x, reached lk_fpu (lk_start ++ [ENet 0 MError; ENet 0 (MDisconnect 1 2)]) x /\ attached x 0 0 /\ length (queued lk_fpu 0 start (lk_start ++ [ENet 0 MError; ENet 0 (MDisconnect 1 2)])) = 4%nat /\
  length (taken 0 (x_out x)) = 2%nat.
Proof.
  assert (E : match run lk_fpu start (lk_start ++ [ENet 0 MError; ENet 0 (MDisconnect 1 2)]) with Some x => match x_links x 0%nat with Some l => Some (l_chan l, length (taken 0 (x_out x))) | None => None end | None => None end = Some (Some 0%nat, 2%nat)) by (vm_compute; reflexivity).
  destruct (run lk_fpu start (lk_start ++ [ENet 0 MError; ENet 0 (MDisconnect 1 2)])) as [x|] eqn:R; [|discriminate E]. destruct (x_links x 0%nat) as [l|] eqn:L; [|discriminate E]. injection E as C T.
  exists x. split; [exact R|]. split; [exists l; split; assumption|]. split; [vm_compute; reflexivity|exact T].
Qed.

(** ** C105: writing *)

(** A value which a record writes is accepted while connected, or always with the option
    retry: it waits for the server, and the PUT has the option process which the links ask for, and
    waits for completion if a record does. *)
Theorem C105_accept : forall fp h x i c l d w, reached fp h x -> accepts x i c -> x_links x i = Some l -> cf_defer (l_conf l) = false -> writable d ->
  exists y m b ps, step fp x (EPut i d w) = Some y /\ pending y i c (kept d) /\ x_out y = x_out x ++ [OStart c m b; OPut i SOk] /\
    (forall p, In p ps <-> exists j, attached x j c /\ (j = i \/ deferred_put x j <> None) /\ p = proc_of x j) /\ process_option ps false m /\
    (b = true <-> w = true \/ waiting x c <> []) /\ (forall r, In r (waiting y c) <-> In r (waiting x c) \/ (w = true /\ r = l_rec l)) /\
    (w = true -> r_pact (x_recs y (l_rec l)) = true).
Proof. exact accept. Qed.
(** else it is refused and nothing changes. *)
Theorem C105_refuse : forall fp h x i l c d w, reached fp h x -> x_links x i = Some l -> l_chan l = Some c -> cf_retry (l_conf l) = false -> latest (taken c (x_out x)) = None ->
  exists y, step fp x (EPut i d w) = Some y /\ x_out y = x_out x ++ [OPut i SFail] /\ x_recs y = x_recs x /\ x_links y = x_links x /\ x_chans y = x_chans x.
Proof. exact reject. Qed.
(** It keeps waiting whatever other links, records and PVs do. *)
Theorem C105_waits_partial : forall fp h x y i c d g, reached fp h x -> pending x i c d -> calm fp i c x g -> run fp x g = Some y -> pending y i c d.
Proof. intros fp h x y i c d g R. exact (pending_run fp i c d g x y (inv_reached _ _ _ R)). Qed.
(** When the server is ready, one PUT has the values of all links which have one, each at the
    place which its option field says, in the order of monorder, and then none is left. *)
Theorem C105_send : forall fp h x i c d w, reached fp h x -> pending x i c d ->
  exists y is items, step fp x (EBuild c w (fun _ => false)) = Some y /\ the_links x c is /\ In i is /\ queued_put x i = Some d /\ parts x w is items /\ x_out y = x_out x ++ [OSend c items] /\
    forall j, attached x j c -> queued_put y j = None.
Proof. exact send. Qed.
(** A link only has values which its record has written to it. *)
Theorem C105_origin : forall fp h x i d, reached fp h x -> queued_put x i = Some d \/ deferred_put x i = Some d -> exists d0 w, In (EPut i d0 w) h /\ d = kept d0.
Proof. exact origin. Qed.
(** When the result of a PUT has come, with success or not, every record which waits completes. *)
Theorem C105_complete : forall fp h x i c k op ok, reached fp h x -> attached x i c -> waiting x c <> [] -> x_chans x c = Some k -> k_put k = Some op -> po_built op = true \/ ok = false ->
  exists y m z o, step fp x (EDone c ok) = Some y /\ run fp y (repeat EWork m) = Some z /\ waiting z c = [] /\ x_out z = x_out y ++ o /\
    forall r, In r (waiting x c) -> In (OComplete r) o \/ In (ONotActive r) o.
Proof.
  intros fp h x i c k op ok R A NE K P B. destruct (done_queues fp h x c ok R NE (ex_intro _ k (ex_intro _ op (conj K (conj P B))))) as (y & Y & T & WT & AT).
  assert (RY : reached fp (h ++ [EDone c ok]) y) by (unfold reached in *; rewrite run_app, R; cbn [run]; rewrite Y; reflexivity).
  destruct (after_all fp c i (x_tasks x) _ y [] RY (AT i A) T) as (m & z & o & Z & W0 & O & C). exists y, m, z, o.
  split; [exact Y|]. split; [exact Z|]. split; [exact W0|]. split; [exact O|]. intros r I0. apply C. rewrite WT. exact I0.
Qed.

Definition lk_out : conf := parse (calls (VMap [(bs "pv", VStr (bs "a"))])).
Definition lk_open : list event := [EOpen 0 lk_out KOut 10 false; EOpen 1 (with_order (-1) lk_out) KOut 11 false; EInit; ENet 0 (lk_update (lk_value 300)); EWork; EWork].
Example C105_accept_ex : exists x l, reached lk_fpu lk_open x /\ accepts x 0 0 /\ x_links x 0%nat = Some l /\ cf_defer (l_conf l) = false /\ writable (DNums DLong [7]).
Proof.
  assert (E : match run lk_fpu start lk_open with Some x => match x_links x 0%nat with Some l => Some (l_chan l, cf_defer (l_conf l), match latest (taken 0 (x_out x)) with Some _ => true | None => false end) | None => None end | None => None end = Some (Some 0%nat, false, true)) by (vm_compute; reflexivity).
  destruct (run lk_fpu start lk_open) as [x|] eqn:R; [|discriminate E]. destruct (x_links x 0%nat) as [l|] eqn:L; [|discriminate E]. injection E as C D V.
  exists x, l. split; [exact R|]. split; [exists l; split; [exact L|split; [exact C|right; intros H; rewrite H in V; discriminate V]]|]. split; [exact L|]. split; [exact D|]. left. discriminate.
Qed.
Example C105_send_ex : match lk_outs lk_open, lk_outs (lk_open ++ [EPut 0 (DNums DLong [7]) true; EPut 1 (DTexts [bs "8"]) false; EBuild 0 (lk_value 0) (fun _ => false); EDone 0 true; EWork]) with Some a, Some b => skipn (length a) b | _, _ => [] end =
  [OStart 0 MPassive true; OPut 0 SOk; OStart 0 MPassive true; OPut 1 SOk; OSend 0 [([bs "value"], IFirst (DTexts [bs "8"])); ([bs "value"], IFirst (DNums DLong [7]))];
   OLock [10%nat]; OComplete 10; OUnlock [10%nat]].
Proof. vm_compute. reflexivity. Qed.

(** A record which waits and has nothing to wait for: no PUT of its PV is under way and the worker has
    nothing to do.  It stays active. *)
Definition lk_stuck (x : ctx) (c r : nat) : Prop :=
  In r (waiting x c) /\ r_pact (x_recs x r) = true /\ x_tasks x = [] /\ exists k, x_chans x c = Some k /\ k_put k = None.
Definition lk_stuckb (x : ctx) : option (list nat * bool * bool * bool) :=
  match x_chans x 0%nat with Some k => Some (k_after k, r_pact (x_recs x 10%nat), is_nil (x_tasks x), match k_put k with None => true | Some _ => false end) | None => None end.
Lemma lk_stuckb_ok x : lk_stuckb x = Some ([10%nat], true, true, true) -> lk_stuck x 0 10.
Proof.
  unfold lk_stuckb, lk_stuck, waiting. destruct (x_chans x 0%nat) as [k|] eqn:K; [|discriminate]. intros [= A P T Q]. rewrite A. split; [left; reflexivity|]. split; [exact P|].
  split; [destruct (x_tasks x); [reflexivity|discriminate T]|]. exists k. split; [reflexivity|]. destruct (k_put k); [discriminate Q|reflexivity].
Qed.
Ltac lk_stuck_by h := assert (E : match run lk_fpu start h with Some x => lk_stuckb x | None => None end = Some ([10%nat], true, true, true)) by (vm_compute; reflexivity);
  destruct (run lk_fpu start h) as [x|] eqn:R; [|discriminate E]; exists h, x; split; [exact R|exact (lk_stuckb_ok x E)].
(** A disconnect while a record waits: it is never completed. *)
Theorem C105_disconnect_refuted : exists h x, reached lk_fpu h x /\ lk_stuck x 0 10.
Proof. lk_stuck_by (lk_open ++ [EPut 0 (DNums DLong [7]) true; ENet 0 (MDisconnect 1 2); EWork; EWork]). Qed.
(** So with the option defer: a record which waits is not completed before another link of the PV
    starts a PUT. *)
Theorem C105_defer_refuted : exists h x, reached lk_fpu h x /\ lk_stuck x 0 10.
Proof. lk_stuck_by [EOpen 0 (parse (calls (VMap [(bs "pv", VStr (bs "a")); (bs "defer", VBool true)]))) KOut 10 false; EInit; ENet 0 (lk_update (lk_value 300)); EWork; EWork; EPut 0 (DNums DLong [7]) true]. Qed.
(** A record may be completed before its value is sent. *)
Theorem C105_early_refuted : exists h x, reached lk_fpu h x /\ pending x 1 0 (DNums DLong [8]) /\ In (OComplete 11) (x_out x) /\ (forall d w, In (EPut 1 d w) h -> d = DNums DLong [8] /\ w = true).
Proof.
  set (h := lk_open ++ [EPut 0 (DNums DLong [7]) true; EBuild 0 (lk_value 0) (fun _ => false); EDone 0 true; EPut 1 (DNums DLong [8]) true; EWork]).
  assert (E : match run lk_fpu start h with Some x => match x_links x 1%nat, x_chans x 0%nat with Some l, Some k => Some (l_chan l, l_scratch l, l_queue l, option_map po_built (k_put k), nth_error (rev (x_out x)) 1) | _, _ => None end | None => None end =
    Some (Some 0%nat, None, Some (DNums DLong [8]), Some false, Some (OComplete 11))) by (vm_compute; reflexivity).
  destruct (run lk_fpu start h) as [x|] eqn:R; [|discriminate E]. destruct (x_links x 1%nat) as [l|] eqn:L; [|discriminate E]. destruct (x_chans x 0%nat) as [k|] eqn:K; [|discriminate E]. injection E as C S Q P O.
  destruct (k_put k) as [op|] eqn:KP; [|discriminate P]. injection P as P. exists h, x. split; [exact R|]. split; [exists l, k, op; tauto|]. split; [apply in_rev; exact (nth_error_In (rev (x_out x)) 1%nat O)|].
  intros d w H. unfold h, lk_open in H. cbn [app In] in H. repeat (destruct H as [H|H]; [try discriminate H; injection H as <- <-; split; reflexivity|]). contradiction.
Qed.
(** After a PUT which failed before it was sent, its value stays: the next PUT of another link
    sends it too, behind the new one if monorder says so, and the PV gets the old value. *)
Theorem C105_stale_refuted : exists h x o, reached lk_fpu h x /\ h = lk_open ++ [EPut 0 (DNums DLong [7]) true; EDone 0 false; EWork; EPut 1 (DNums DLong [8]) false; EBuild 0 (lk_value 0) (fun _ => false)] /\
  x_out x = o ++ [OSend 0 [([bs "value"], IFirst (DNums DLong [8])); ([bs "value"], IFirst (DNums DLong [7]))]] /\ In (OComplete 10) o.
Proof.
  set (h := lk_open ++ [EPut 0 (DNums DLong [7]) true; EDone 0 false; EWork; EPut 1 (DNums DLong [8]) false; EBuild 0 (lk_value 0) (fun _ => false)]).
  assert (E : match run lk_fpu start h with Some x => Some (firstn 1 (rev (x_out x)), nth_error (rev (x_out x)) 4) | None => None end =
    Some ([OSend 0 [([bs "value"], IFirst (DNums DLong [8])); ([bs "value"], IFirst (DNums DLong [7]))]], Some (OComplete 10))) by (vm_compute; reflexivity).
  destruct (run lk_fpu start h) as [x|] eqn:R; [|discriminate E]. injection E as E1 E2. exists h, x, (rev (tl (rev (x_out x)))). split; [exact R|]. split; [reflexivity|].
  rewrite <- (rev_involutive (x_out x)) at 1. destruct (rev (x_out x)) as [|a r]; [discriminate E1|]. cbn in E1. injection E1 as ->. split; [reflexivity|]. apply in_rev. rewrite rev_involutive. cbn [tl]. exact (nth_error_In r 3%nat E2).
Qed.
(** A disconnect drops a value which waits, even with the option retry. *)
Theorem C105_retry_refuted : exists h x l, reached lk_fpu h x /\ x_links x 0%nat = Some l /\ cf_retry (l_conf l) = true /\ In (OPut 0 SOk) (x_out x) /\ queued_put x 0 = None /\ deferred_put x 0 = None /\ forall items, ~ In (OSend 0 items) (x_out x).
Proof.
  set (h := [EOpen 0 (parse (calls (VMap [(bs "pv", VStr (bs "a")); (bs "retry", VBool true)]))) KOut 10 false; EInit; ENet 0 (lk_update (lk_value 300)); EWork; EWork; EPut 0 (DNums DLong [7]) false; ENet 0 (MDisconnect 1 2); EWork; EWork]).
  assert (E : match run lk_fpu start h with Some x => match x_links x 0%nat with Some l => Some (cf_retry (l_conf l), l_queue l, l_scratch l, existsb (fun o => match o with OPut 0 SOk => true | _ => false end) (x_out x), existsb (fun o => match o with OSend _ _ => true | _ => false end) (x_out x)) | None => None end | None => None end =
    Some (true, None, None, true, false)) by (vm_compute; reflexivity).
  destruct (run lk_fpu start h) as [x|] eqn:R; [|discriminate E]. destruct (x_links x 0%nat) as [l|] eqn:L; [|discriminate E]. injection E as RT Q S O N.
  exists h, x, l. split; [exact R|]. split; [exact L|]. split; [exact RT|]. split.
  - apply existsb_exists in O. destruct O as (o & I0 & O). destruct o; try discriminate O. match type of O with (match ?a with _ => _ end) = _ => destruct a; try discriminate O end. match type of O with (match ?a with _ => _ end) = _ => destruct a; try discriminate O end. exact I0.
  - split; [unfold queued_put; rewrite L; exact Q|]. split; [unfold deferred_put; rewrite L; exact S|]. intros items I0. assert (existsb (fun o => match o with OSend _ _ => true | _ => false end) (x_out x) = true) by (apply existsb_exists; eexists; split; [exact I0|reflexivity]). congruence.
Qed.

(** ** C106: sharing *)

(** Links which share a subscription ask for the same PV, pipeline and queue. *)
Theorem C106_same_request : forall fp h x i j c l m, reached fp h x -> x_links x i = Some l -> x_links x j = Some m -> l_chan l = Some c -> l_chan m = Some c -> request (l_conf l) = request (l_conf m).
Proof.
  intros fp h x i j c l m R L M C D. pose proof (inv_reached _ _ _ R) as IV. destruct (i_att _ IV _ _ _ L C) as (k & K & _).
  destruct (i_key _ IV _ _ _ _ L C K) as [E1 _]. destruct (i_key _ IV _ _ _ _ M D K) as [E2 _]. congruence.
Qed.
(** If unused subscriptions are gone before a link is opened, all links which ask for the same
    share one, *)
Theorem C106_shared_partial : forall fp h x i j c d l m, reached fp h x -> tidy fp start h -> x_links x i = Some l -> l_chan l = Some c -> x_links x j = Some m -> l_chan m = Some d ->
  request (l_conf l) = request (l_conf m) -> c = d.
Proof. exact shared. Qed.
(** and each link has one. *)
Theorem C106_subscribed_partial : forall fp h x i c, reached fp h x -> tidy fp start h -> x_running x = true -> attached x i c -> subscribed x c.
Proof. exact subscribed_all. Qed.
Example C106_shared_ex : exists x l m, reached lk_fpu lk_open x /\ tidy lk_fpu start lk_open /\ x_links x 0%nat = Some l /\ l_chan l = Some 0%nat /\ x_links x 1%nat = Some m /\ l_chan m = Some 0%nat /\ request (l_conf l) = request (l_conf m) /\ x_running x = true.
Proof.
  assert (E : match run lk_fpu start lk_open with Some x => match x_links x 0%nat, x_links x 1%nat with Some l, Some m => Some (l_chan l, l_chan m, request (l_conf l), request (l_conf m), x_running x) | _, _ => None end | None => None end = Some (Some 0%nat, Some 0%nat, (bs "a", (false, 4)), (bs "a", (false, 4)), true)) by (vm_compute; reflexivity).
  destruct (run lk_fpu start lk_open) as [x|] eqn:R; [|discriminate E]. destruct (x_links x 0%nat) as [l|] eqn:L; [|discriminate E]. destruct (x_links x 1%nat) as [m|] eqn:M; [|discriminate E]. injection E as C D Qa Qb Qc Qd Qe Qf RN.
  exists x, l, m. split; [exact R|]. split.
  - unfold lk_open. split; [intros c H; contradiction H; reflexivity|]. split; [|cbn [step]; repeat (split; [exact Logic.I|]); exact Logic.I].
    intros c H. destruct c as [|c]; [|contradiction H; reflexivity]. exists 0%nat. unfold attached. eexists. split; reflexivity.
  - split; [exact L|]. split; [exact C|]. split; [exact M|]. split; [exact D|]. split; [unfold request; congruence|exact RN].
Qed.
(** Else two subscriptions to the same PV may stay. *)
Theorem C106_shared_refuted : exists h x l m, reached lk_fpu h x /\ x_links x 1%nat = Some l /\ x_links x 2%nat = Some m /\ request (l_conf l) = request (l_conf m) /\ l_chan l <> l_chan m /\ (exists c, l_chan l = Some c /\ subscribed x c) /\ (exists d, l_chan m = Some d /\ subscribed x d).
Proof.
  set (h := [EInit; EOpen 0 lk_out KIn 10 false; ERemove 0; EOpen 1 lk_out KIn 11 false; EFree 0; EOpen 2 lk_out KIn 12 false]).
  assert (E : match run lk_fpu start h with Some x => match x_links x 1%nat, x_links x 2%nat, x_chans x 1%nat, x_chans x 2%nat with Some l, Some m, Some a, Some b => Some (l_chan l, l_chan m, request (l_conf l), request (l_conf m), k_open a, k_open b) | _, _, _, _ => None end | None => None end = Some (Some 1%nat, Some 2%nat, (bs "a", (false, 4)), (bs "a", (false, 4)), true, true)) by (vm_compute; reflexivity).
  destruct (run lk_fpu start h) as [x|] eqn:R; [|discriminate E]. destruct (x_links x 1%nat) as [l|] eqn:L; [|discriminate E]. destruct (x_links x 2%nat) as [m|] eqn:M; [|discriminate E]. destruct (x_chans x 1%nat) as [a|] eqn:A; [|discriminate E]. destruct (x_chans x 2%nat) as [b|] eqn:B; [|discriminate E].
  injection E as C D Qa Qb Qc Qd Qe Qf O1 O2. exists h, x, l, m. split; [exact R|]. split; [exact L|]. split; [exact M|]. split; [unfold request; congruence|]. split; [rewrite C, D; discriminate|].
  split; [exists 1%nat; split; [exact C|exists a; tauto]|exists 2%nat; split; [exact D|exists b; tauto]].
Qed.

(** ** C107: no crash *)

(** Nothing which a record does with a link which has a PV name uses a null pointer, as long as a
    read does not convert floating point numbers or arrays of numbers. *)
Theorem C107_safe_partial : forall fp h x i, reached fp h x -> (forall l, x_links x i = Some l -> cf_name (l_conf l) <> []) ->
  (forall d w, step fp x (EPut i d w) <> None) /\ step fp x (EFwd i) <> None /\
  (forall l c t n, x_links x i = Some l -> l_chan l = Some c ->
     (match latest (taken c (x_out x)) with Some v => is_struct (field_at v (l_conf l)) = true /\ forall p d, v p = Some d -> whole (nd_data d) | None => True end) -> step fp x (EGet i t n) <> None).
Proof.
  intros fp h x i R N. pose proof (inv_reached _ _ _ R) as IV. split; [intros d w; exact (put_safe fp x i d w IV N)|]. split; [exact (fwd_safe fp x i IV N)|].
  intros l c t n L C W. destruct (latest (taken c (x_out x))) as [v|] eqn:V; [destruct W as [ST W]; exact (get_safe fp h x i l c v t n R L C V ST W)|exact (get_off_safe fp x i t n l c IV L C V)].
Qed.
Example C107_safe_ex : exists x l w, reached lk_fpu lk_start x /\ x_links x 0%nat = Some l /\ cf_name (l_conf l) <> [] /\ l_chan l = Some 0%nat /\ latest (taken 0 (x_out x)) = Some w /\ is_struct (field_at w (l_conf l)) = true /\
  forall p d, w p = Some d -> whole (nd_data d).
Proof.
  assert (E : match run lk_fpu start lk_start with Some x => match x_links x 0%nat with Some l => Some (l_chan l, cf_name (l_conf l), option_map (fun w => is_struct (field_at w (l_conf l))) (latest (taken 0 (x_out x)))) | None => None end | None => None end = Some (Some 0%nat, bs "a", Some true)) by (vm_compute; reflexivity).
  assert (T : match run lk_fpu start lk_start with Some x => taken 0 (x_out x) | None => [] end = [lk_update (lk_value 300); lk_only (lk_value 5) ["value"%string]]) by (vm_compute; reflexivity).
  destruct (run lk_fpu start lk_start) as [x|] eqn:R; [|discriminate E]. destruct (x_links x 0%nat) as [l|] eqn:L; [|discriminate E]. destruct (latest (taken 0 (x_out x))) as [w|] eqn:W; [|discriminate E].
  injection E as C N ST. exists x, l, w. split; [exact R|]. split; [exact L|]. split; [rewrite N; discriminate|]. split; [exact C|]. split; [exact W|]. split; [exact ST|].
  assert (WV : forall z p d, lk_value z p = Some d -> whole (nd_data d)).
  { intros z p d. unfold lk_value, lk_img. destruct (find _ _) as [[q n]|] eqn:F; [|discriminate]. intros [= <-]. apply find_some in F. destruct F as [F _]. cbn [In snd] in *.
    repeat (destruct F as [F|F]; [injection F as _ <-; exact Logic.I|]). contradiction. }
  rewrite T in W. unfold latest in W. cbn [fold_left see lk_update lk_only up_img up_marked] in W. apply some_inj in W. subst w. cbv beta. intros p d.
  destruct (lk_value 300 p) as [n|] eqn:V; [|discriminate]. destruct (if list_eq_dec _ _ _ then true else false); [destruct (lk_value 5 p) as [m|] eqn:V5; intros [= <-]; [exact (WV _ _ _ V5)|exact (WV _ _ _ V)]|intros [= <-]; exact (WV _ _ _ V)].
Qed.
(** The other events never crash. *)
Theorem C107_others : forall fp x e, (forall i t n, e <> EGet i t n) -> (forall i d w, e <> EPut i d w) -> (forall i, e <> EFwd i) -> step fp x e <> None.
Proof. intros fp x e G P F. destruct e; cbn [step]; try discriminate; exfalso; [exact (G _ _ _ eq_refl)|exact (P _ _ _ eq_refl)|exact (F _ eq_refl)]. Qed.
(** A link with an empty name can be opened, and any use of it crashes. *)
Theorem C107_name_refuted : exists h x, reached lk_fpu h x /\ step lk_fpu x (EGet 0 DLong None) = None /\ step lk_fpu x (EPut 0 (DNums DLong [1]) false) = None /\ step lk_fpu x (EFwd 0) = None.
Proof.
  set (h := [EOpen 0 (parse (calls (VMap []))) KIn 10 false]). destruct (run lk_fpu start h) as [x|] eqn:R; [|discriminate R]. exists h, x. split; [exact R|].
  assert (E : match run lk_fpu start h with Some x => match step lk_fpu x (EGet 0 DLong None), step lk_fpu x (EPut 0 (DNums DLong [1]) false), step lk_fpu x (EFwd 0) with None, None, None => true | _, _, _ => false end | None => false end = true) by (vm_compute; reflexivity).
  rewrite R in E. destruct (step lk_fpu x (EGet 0 DLong None)); [discriminate E|]. destruct (step lk_fpu x (EPut 0 (DNums DLong [1]) false)); [discriminate E|]. destruct (step lk_fpu x (EFwd 0)); [discriminate E|]. tauto.
Qed.
(** A record which reads a large floating point number as an integer: undefined. *)
Theorem C107_real_refuted : exists h x l w d, reached lk_fpu h x /\ x_links x 0%nat = Some l /\ latest (taken 0 (x_out x)) = Some w /\ value_at w (l_conf l) = Some d /\ nd_data d = PReal 9223372036854775808 /\ step lk_fpu x (EGet 0 DLong None) = None.
Proof.
  set (h := [EOpen 0 lk_out KIn 10 false; EInit; ENet 0 (lk_update (lk_img [([], lk_node tc_Struct PNull); (["value"%string], lk_node tc_Float64 (PReal 9223372036854775808))])); EWork]).
  assert (E : match run lk_fpu start h with Some x => match x_links x 0%nat, latest (taken 0 (x_out x)) with Some l, Some w => Some (option_map nd_data (value_at w (l_conf l)), match step lk_fpu x (EGet 0 DLong None) with None => true | Some _ => false end) | _, _ => None end | None => None end = Some (Some (PReal 9223372036854775808), true)) by (vm_compute; reflexivity).
  destruct (run lk_fpu start h) as [x|] eqn:R; [|discriminate E]. destruct (x_links x 0%nat) as [l|] eqn:L; [|discriminate E]. destruct (latest (taken 0 (x_out x))) as [w|] eqn:W; [|discriminate E].
  destruct (value_at w (l_conf l)) as [d|] eqn:V; [|discriminate E]. destruct (step lk_fpu x (EGet 0 DLong None)) eqn:G; [discriminate E|]. apply some_inj in E. pose proof (f_equal fst E) as E1. cbn [fst option_map] in E1. apply some_inj in E1.
  exists h, x, l, w, d. tauto.
Qed.

Print Assumptions C102_options.
Print Assumptions C102_name_only.
Print Assumptions C102_order_refuted.
Print Assumptions C102_queue_refuted.
Print Assumptions C103_read.
Print Assumptions C103_not_connected.
Print Assumptions C103_disconnect_time.
Print Assumptions C103_missing_refuted.
Print Assumptions C104_processing.
Print Assumptions C104_order.
Print Assumptions C104_all.
Print Assumptions C105_accept.
Print Assumptions C105_refuse.
Print Assumptions C105_waits_partial.
Print Assumptions C105_send.
Print Assumptions C105_origin.
Print Assumptions C105_complete.
Print Assumptions C105_disconnect_refuted.
Print Assumptions C105_defer_refuted.
Print Assumptions C105_early_refuted.
Print Assumptions C105_stale_refuted.
Print Assumptions C105_retry_refuted.
Print Assumptions C106_same_request.
Print Assumptions C106_shared_partial.
Print Assumptions C106_subscribed_partial.
Print Assumptions C106_shared_refuted.
Print Assumptions C107_safe_partial.
Print Assumptions C107_others.
Print Assumptions C107_name_refuted.
Print Assumptions C107_real_refuted.
Print Assumptions C103_stale_time_refuted.

(** ** C109: what a record learns about the PV *)

(** While connected: the type of record field for a number or string, and for an enum_t, *)
Theorem C109_type : forall fp h x i l c w d t, reached fp h x -> x_links x i = Some l -> l_chan l = Some c -> latest (taken c (x_out x)) = Some w -> value_at w (l_conf l) = Some d ->
  nd_code d = from_dbr t -> t <> DEnum -> t <> DNoAccess -> exists k, x_chans x c = Some k /\ dbf_type k l = Some t.
Proof.
  intros fp h x i l c w d t R L C W D T N1 N2. destruct (knows fp h x i l c w R L C W) as (k & K & V & F & _). exists k. split; [exact K|]. apply (type_scalar k l d t V); [congruence|exact T|exact N1|exact N2].
Qed.
Theorem C109_enum : forall fp h x i l c w d ix ch, reached fp h x -> x_links x i = Some l -> l_chan l = Some c -> latest (taken c (x_out x)) = Some w -> value_at w (l_conf l) = Some d ->
  nd_code d = tc_Struct -> nd_id d = bs "enum_t" -> part w (l_conf l) ["value"%string] = Some d ->
  part w (l_conf l) ["value"; "index"]%string = Some ix -> In (nd_code ix) [tc_Int8; tc_Int16; tc_Int32; tc_Int64; tc_UInt8; tc_UInt16; tc_UInt32; tc_UInt64] ->
  part w (l_conf l) ["value"; "choices"]%string = Some ch -> nd_code ch = tc_StringA -> exists k, x_chans x c = Some k /\ dbf_type k l = Some DEnum.
Proof.
  intros fp h x i l c w d ix ch R L C W D CD ID P PI II PC CC. destruct (knows fp h x i l c w R L C W) as (k & K & V & F & _ & Sb). exists k. split; [exact K|].
  unfold part in P, PI, PC. destruct (is_struct (field_at w (l_conf l))) eqn:ST; [|discriminate P]. cbn [map] in P, PI, PC. rewrite P in Sb. rewrite D in F.
  destruct (f_value l) as [[g p]|] eqn:FV; [|discriminate F]. pose proof (Sb [bs "index"]) as S1. pose proof (Sb [bs "choices"]) as S2. rewrite <- app_assoc in S1, S2. cbn [app] in S1, S2. rewrite PI in S1. rewrite PC in S2.
  apply (type_enum k l d ix ch g p V FV); [rewrite FV; exact F|exact CD|exact ID|exact S1|exact S2| | |exact CC].
  - cbn [In] in II. repeat (destruct II as [<- |II]; [reflexivity|]). contradiction.
  - cbn [In] in II. repeat (destruct II as [<- |II]; [discriminate|]). contradiction.
Qed.
(** the number of elements, *)
Theorem C109_elements : forall fp h x i l c w d n0, reached fp h x -> x_links x i = Some l -> l_chan l = Some c -> latest (taken c (x_out x)) = Some w -> value_at w (l_conf l) = Some d ->
  exists k, x_chans x c = Some k /\ (tc_isarray (nd_code d) = false -> elements k l n0 = Some 1) /\
    (forall t z, tc_isarray (nd_code d) = true -> nd_data d = PArr (APod t z) -> elements k l n0 = Some (Z.of_nat (length z))) /\
    (forall z, tc_isarray (nd_code d) = true -> nd_data d = PArr (AStr z) -> elements k l n0 = Some (Z.of_nat (length z))).
Proof.
  intros fp h x i l c w d n0 R L C W D. destruct (knows fp h x i l c w R L C W) as (k & K & V & F & _). exists k. split; [exact K|]. rewrite D in F. unfold elements. rewrite V, F. cbn [negb].
  split; [intros ->; reflexivity|]. split; [intros t z -> ->; reflexivity|intros z -> ->; reflexivity].
Qed.
(** limits, units and precision as the PV has them. *)
Theorem C109_limits : forall fp h x i l c w a b da db za zb old, reached fp h x -> x_links x i = Some l -> l_chan l = Some c -> latest (taken c (x_out x)) = Some w ->
  part w (l_conf l) a = Some da -> nd_data da = PReal za -> part w (l_conf l) b = Some db -> nd_data db = PReal zb ->
  exists k, x_chans x c = Some k /\ limits fp k l (map bs a) (map bs b) old = Some (za, zb).
Proof.
  intros fp h x i l c w a b da db za zb old R L C W A DA B DB. destruct (knows fp h x i l c w R L C W) as (k & K & V & _ & M & _). exists k. split; [exact K|]. unfold limits. rewrite V. cbn [negb]. rewrite !M, A, B, DA, DB. reflexivity.
Qed.
Theorem C109_units : forall fp h x i l c w d s size, reached fp h x -> x_links x i = Some l -> l_chan l = Some c -> latest (taken c (x_out x)) = Some w ->
  part w (l_conf l) ["display"; "units"]%string = Some d -> nd_data d = PStr s -> ~ In 0 s -> exists k u, x_chans x c = Some k /\ units fp k l size = Some u /\ u = firstn (size - 1) s.
Proof.
  intros fp h x i l c w d s size R L C W D DS NZ. destruct (knows fp h x i l c w R L C W) as (k & K & V & _ & M & _). exists k. eexists. split; [exact K|]. unfold units. rewrite V. cbn [negb]. pose proof (M ["display"; "units"]%string) as E. cbn [map] in E. rewrite E, D, DS. split; [reflexivity|].
  cbn [to_text]. rewrite Nat.sub_1_r. f_equal. clear -NZ. induction s as [|z s IH]; [reflexivity|]. cbn [c_str]. destruct (Z.eqb_spec z 0) as [-> |N]; [contradiction NZ; left; reflexivity|]. f_equal. apply IH. intros X. apply NZ. right. exact X.
Qed.
Theorem C109_precision : forall fp h x i l c w d z, reached fp h x -> x_links x i = Some l -> l_chan l = Some c -> latest (taken c (x_out x)) = Some w ->
  part w (l_conf l) ["display"; "precision"]%string = Some d -> nd_data d = PInt z -> 0 <= z < 32768 -> exists k, x_chans x c = Some k /\ precision fp k l = Some z.
Proof.
  intros fp h x i l c w d z R L C W D DS Z0. destruct (knows fp h x i l c w R L C W) as (k & K & V & _ & M & _). exists k. split; [exact K|]. unfold precision. rewrite V. cbn [negb]. pose proof (M ["display"; "precision"]%string) as E. cbn [map] in E. rewrite E, D, DS.
  f_equal. unfold as_z, out_leaf, to_uint, c_cast. change (int_bytes tc_UInt64) with (Some 8%nat). change (int_signed tc_UInt64) with false. change (tc_UInt64 =? tc_Bool) with false. cbv iota beta. rewrite (u8_u 2 z z); [|lia|change (2 ^ (8 * Z.of_nat 2)) with 65536; lia|exists 0; lia]. apply cast_s; [lia|change (2 ^ (8 * Z.of_nat 2 - 1)) with 32768; lia|exists 0; lia].
Qed.
(** The last alarm and time which a read has given. *)
Theorem C109_alarm_time : forall fp h x i l c w t n b m tm sev y,
  reached fp h x -> x_links x i = Some l -> l_chan l = Some c -> latest (taken c (x_out x)) = Some w -> is_struct (field_at w (l_conf l)) = true ->
  gives fp w (l_conf l) t n b m -> time_is w (l_conf l) tm -> severity_is w (l_conf l) sev -> step fp x (EGet i t n) = Some y ->
  exists l' k, x_links y i = Some l' /\ x_chans y c = Some k /\ stamp_now k l' = Some tm /\ alarm_now k l' = Some (if Z.eq_dec sev 0 then 0 else 14, sev).
Proof.
  intros fp h x i l c w t n b m tm sev y R L C W ST G T SV S. destruct (read_keeps fp h x i l c w t n b m tm sev y R L C W ST G T SV S) as (l' & k & L' & C' & K & V & E1 & E2).
  exists l', k. split; [exact L'|]. split; [exact K|]. unfold stamp_now, alarm_now. rewrite V, E1, E2. cbn [negb]. split; [reflexivity|]. destruct (Z.eq_dec sev 0) as [-> |N]; [reflexivity|]. apply Z.eqb_neq in N. rewrite N. reflexivity.
Qed.
(** Nothing while not connected. *)
Theorem C109_not_connected : forall fp h x i l c, reached fp h x -> x_links x i = Some l -> l_chan l = Some c -> latest (taken c (x_out x)) = None ->
  exists k, x_chans x c = Some k /\ dbf_type k l = None /\ (forall n0, elements k l n0 = None) /\ (forall a b old, limits fp k l a b old = None) /\ (forall n, units fp k l n = None) /\ precision fp k l = None /\ alarm_now k l = None /\ stamp_now k l = None.
Proof.
  intros fp h x i l c R L C W. destruct (knows_off fp h x i l c R L C W) as (k & K & V). exists k. split; [exact K|]. unfold dbf_type, elements, limits, units, precision, alarm_now, stamp_now. rewrite V. cbn [negb]. repeat (split; [reflexivity|]). reflexivity.
Qed.
Example C109_type_ex : exists x l w d, reached lk_fpu lk_start x /\ x_links x 0%nat = Some l /\ l_chan l = Some 0%nat /\ latest (taken 0 (x_out x)) = Some w /\ value_at w (l_conf l) = Some d /\ nd_code d = from_dbr DLong.
Proof.
  assert (E : match run lk_fpu start lk_start with Some x => match x_links x 0%nat, latest (taken 0 (x_out x)) with Some l, Some w => Some (l_chan l, option_map nd_code (value_at w (l_conf l))) | _, _ => None end | None => None end = Some (Some 0%nat, Some tc_Int32)) by (vm_compute; reflexivity).
  destruct (run lk_fpu start lk_start) as [x|] eqn:R; [|discriminate E]. destruct (x_links x 0%nat) as [l|] eqn:L; [|discriminate E]. destruct (latest (taken 0 (x_out x))) as [w|] eqn:W; [|discriminate E].
  destruct (value_at w (l_conf l)) as [d|] eqn:D; [|discriminate E]. apply some_inj in E. pose proof (f_equal fst E) as E1. pose proof (f_equal snd E) as E2. cbn [fst snd option_map] in E1, E2. apply some_inj in E2.
  exists x, l, w, d. tauto.
Qed.
(** The type given for an array of doubles is that of a 32 bit integer. *)
Theorem C109_array_refuted : exists h x l w d k, reached lk_fpu h x /\ x_links x 0%nat = Some l /\ l_chan l = Some 0%nat /\ latest (taken 0 (x_out x)) = Some w /\ value_at w (l_conf l) = Some d /\ tc_scalarOf (nd_code d) = tc_Float64 /\
  x_chans x 0%nat = Some k /\ dbf_type k l = Some DLong.
Proof.
  set (h := [EOpen 0 lk_out KIn 10 false; EInit; ENet 0 (lk_update (lk_img [([], lk_node tc_Struct PNull); (["value"%string], lk_node (tc_arrayOf tc_Float64) (PArr (APod (tc_arrayOf tc_Float64) [1; 2])))])); EWork]).
  assert (E : match run lk_fpu start h with Some x => match x_links x 0%nat, latest (taken 0 (x_out x)), x_chans x 0%nat with Some l, Some w, Some k => Some (l_chan l, option_map nd_code (value_at w (l_conf l)), dbf_type k l) | _, _, _ => None end | None => None end = Some (Some 0%nat, Some (tc_arrayOf tc_Float64), Some DLong)) by (vm_compute; reflexivity).
  destruct (run lk_fpu start h) as [x|] eqn:R; [|discriminate E]. destruct (x_links x 0%nat) as [l|] eqn:L; [|discriminate E]. destruct (latest (taken 0 (x_out x))) as [w|] eqn:W; [|discriminate E]. destruct (x_chans x 0%nat) as [k|] eqn:K; [|discriminate E].
  destruct (value_at w (l_conf l)) as [d|] eqn:D; [|discriminate E]. apply some_inj in E. pose proof (f_equal (fun p => fst (fst p)) E) as E1. pose proof (f_equal (fun p => snd (fst p)) E) as E2. pose proof (f_equal snd E) as E3. cbn [fst snd option_map] in E1, E2, E3. apply some_inj in E2.
  exists h, x, l, w, d, k. rewrite E2. tauto.
Qed.

Print Assumptions C103_path.
Print Assumptions C109_type.
Print Assumptions C109_enum.
Print Assumptions C109_elements.
Print Assumptions C109_limits.
Print Assumptions C109_units.
Print Assumptions C109_precision.
Print Assumptions C109_alarm_time.
Print Assumptions C109_not_connected.
Print Assumptions C109_array_refuted.
