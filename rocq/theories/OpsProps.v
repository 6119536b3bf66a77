(** C87-C92: GET, PUT and MONITOR of the PVs of an IOC. *)
From Coq Require Import String ZArith List Bool Lia Arith.
From Verif Require Import Base BaseProofs WireModel TypeModel TextModel ValueModel MarkModel CopyModel CopyProps NtModel GroupModel OpsModel OpsSpec
  OpsProofs OpsProofs2 OpsProofs3 OpsProofs4 OpsProofs5 OpsProofs6 OpsProofs7 OpsProofs8 OpsProofs9 OpsProofs10 OpsProofs11 OpsProofs12 OpsProofs13.
From Verif Require GroupSpec GroupProofs GroupProps.
Import ListNotations.
Local Open Scope Z_scope.

(** ** A database for examples *)
Definition o_chan (r : nat) (t : dbr) (n : Z) : chan := {| ch_record := r; ch_type := t; ch_elems := n; ch_link := false; ch_text := false |}.
Definition o_db (n : str) : option chan :=
  if str_eqb n (bs "A") then Some (o_chan 0 DDouble 1)
  else if str_eqb n (bs "B") then Some (o_chan 1 DLong 1)
  else if str_eqb n (bs "S") then Some (o_chan 2 DString 1)
  else if str_eqb n (bs "E") then Some (o_chan 3 DEnum 1)
  else None.
Definition o_rec (n : str) : nat := match o_db n with Some c => ch_record c | None => 9%nat end.
Definition o_attr : cattr :=
  {| ca_attribute := false; ca_disp := false; ca_proc := false; ca_passive := true; ca_link := false; ca_final_link := false; ca_mask := 0; ca_form := None |}.
Definition o_meta : meta := {| m_status := 3; m_severity := 2; m_amsg := []; m_sec := 1000; m_nsec := 123456789; m_utag := 5 |}.
Definition o_props : props :=
  {| pr_units := Some (bs "mm"); pr_prec := Some 3; pr_enum := None; pr_gr := Some (1, 2); pr_ctrl := Some (3, 4); pr_al := None; pr_desc := bs "d" |}.
Definition o_value (ch : str) : raw := if str_eqb ch (bs "S") then RTexts [bs "text"] else RNums [7].
Definition o_moment : moment := {| mo_meta := fun _ => Some o_meta; mo_props := fun _ => Some o_props; mo_value := fun ch => Some (o_value ch) |}.
Definition o_world (allow : str -> bool) : world :=
  {| w_attr := fun _ => o_attr; w_allow := fun _ ch _ _ => allow ch; w_disp := fun _ _ => false; w_pact := fun _ _ => false; w_scan := fun _ _ => true;
     w_meta := fun _ => mo_meta o_moment; w_props := fun _ => mo_props o_moment; w_value := fun _ => mo_value o_moment;
     w_put := fun _ _ _ => true; w_process := fun _ _ => true; w_alarm_name := fun _ => bs "HIHI" |}.
Definition o_field (ch tr : string) (t : mtype) (order : Z) : fconf :=
  {| fc_channel := bs ch; fc_trigger := bs tr; fc_id := []; fc_type := t; fc_order := order; fc_const := None |}.
Definition o_const (z : Z) : fconf :=
  {| fc_channel := []; fc_trigger := []; fc_id := []; fc_type := MConst; fc_order := no_order; fc_const := Some (PInt z) |}.
Definition o_group (atomic : bool) (l : list (string * fconf)) : jres group :=
  create_group o_db (define_group (bs "g") {| gc_atomic := atomic; gc_atomic_set := true; gc_id := []; gc_fields := map (fun x => (bs (fst x), snd x)) l |}).
Definition o_creds : creds := {| cr_host := bs "host"; cr_names := [bs "me"] |}.
Definition s0 : ost := {| s_acts := []; s_val := [] |}.
(** a client which sends numbers for these members *)
Definition o_sent (l : list (list str * Z)) : sent :=
  {| sn_marked := map fst l;
     sn_at := fun p => match find (fun x => if list_eq_dec (list_eq_dec Z.eq_dec) (fst x) p then true else false) l with
                       | Some x => SLeaf (PInt (snd x)) | None => SStruct end |}.
Lemma o_locks w rec : seen (o_world w) (fun _ => o_moment) /\ locks_work rec (fun _ => o_moment).
Proof. split; [intros h ch; repeat split|]. intros h a ch _ _ _. repeat split. Qed.
Lemma o_answers w : answers (o_world w).
Proof. intros h ch. repeat split; discriminate. Qed.

(** ** Groups which were made from a configuration *)
Definition servable (db : str -> option chan) (x : str * fconf) : Prop :=
  match fc_type (snd x) with
  | MScalar => fc_channel (snd x) <> [] /\ forall c, db (fc_channel (snd x)) = Some c -> readable c /\ (ch_type c = DEnum -> ch_elems c = 1)
  | MPlain | MMeta | MAny => fc_channel (snd x) <> [] /\ forall c, db (fc_channel (snd x)) = Some c -> readable c
  | MProc => fc_channel (snd x) <> []
  | MConst => fc_channel (snd x) = [] /\ fc_const (snd x) <> None
  | MStructure => fc_channel (snd x) = []
  end.

(** the type of what an Any holds *)
Definition any_ok (f : cfield) : Prop := ftype f = MAny -> forall c, cf_chan f = Some c -> cf_any f = Some (any_code c).
Lemma any_code_same c : any_code c = if ch_elems c =? 1 then from_dbr (ch_type c) else tc_arrayOf (from_dbr (ch_type c)).
Proof. unfold any_code. destruct (ch_elems c =? 1); destruct (ch_type c); reflexivity. Qed.
Lemma make_field_any db d f : make_field db d = Some f -> any_ok f.
Proof.
  unfold make_field. destruct (parse_name (fd_name d)); [|discriminate]. cbv zeta. destruct (_ && _); [discriminate|].
  destruct (fc_type (fd_conf d)) eqn:Et; try (intros E; inversion E; subst; intros H; unfold ftype in H; cbn [cf_conf] in H; congruence).
  destruct (if has_channel d then _ else _) as [c|] eqn:Ec.
  - destruct (tc_valid _); [|discriminate]. intros E. inversion E; subst. intros _ c' Hc. cbn [cf_chan cf_any] in *. inversion Hc; subst. rewrite any_code_same. reflexivity.
  - intros E. inversion E; subst. intros _ c' Hc. discriminate.
Qed.
Lemma make_fields_any db l : Forall any_ok (fst (make_fields db l)).
Proof.
  induction l as [|d l IH]; cbn [make_fields]; [constructor|]. destruct (make_field db d) as [f|] eqn:E; [|constructor].
  destruct (make_fields db l) as (fs & ok). cbn [fst] in *. constructor; [exact (make_field_any _ _ _ E)|exact IH].
Qed.
Lemma set_trig_any i t l : Forall any_ok l -> Forall any_ok (set_trig i t l).
Proof.
  intros F. unfold set_trig. rewrite <- (firstn_skipn i l) in F. apply Forall_app in F as (F1 & F2). apply Forall_app. split; [exact F1|].
  destruct (skipn i l); [constructor|]. inversion F2; subst. constructor; auto.
Qed.
Lemma init_triggers_any defs todo : forall fields fs, Forall any_ok fields -> init_triggers defs todo fields = JOk fs -> Forall any_ok fs.
Proof.
  induction todo as [|d todo IH]; intros fields fs F E; cbn [init_triggers] in E; [inversion E; subst; exact F|].
  repeat match type of E with context [match ?x with _ => _ end] => destruct x end; try discriminate; eauto using set_trig_any.
Qed.
Lemma create_any db g grp : create_group db g = JOk grp -> Forall any_ok (g_fields grp).
Proof.
  unfold create_group. pose proof (make_fields_any db (gd_fields g)) as F. destruct (make_fields db (gd_fields g)) as (fs & ok). cbn [fst] in F.
  destruct (init_triggers _ _ fs) as [fs'| | |] eqn:E; try discriminate.
  - pose proof (init_triggers_any _ _ _ _ F E) as F'. destruct (template g fs'); intros X; inversion X; subst; exact F'.
  - intros X. inversion X; subst. exact F.
Qed.

(** ** C87: PUT of a group *)
(** Calls made by a PUT: only writes which access security permits at that moment, only of
    channels of fields sent, only the content sent, in the order of the fields, and each
    while its record is locked. *)
Theorem C87_permitted : forall fp w g opt cr force v s s' r,
  atomic_of g opt = true \/ (forall f, In f (g_fields g) -> cf_chan f <> None) ->
  put_group fp w g opt cr force v s = (s', r) ->
  exists d, s_acts s' = s_acts s ++ d /\ s_val s' = s_val s /\
    during (s_acts s) d (put_call (fun h ch => allowed w h ch cr) (g_fields g) v) /\
    during (s_acts s) d (under_lock (g_fields g)) /\
    subseq (written d) (map chan_name (g_fields g)).
Proof.
  intros fp w g opt cr force v s s' r Hc E. destruct (put_allowed fp w g opt cr force v Hc _ _ _ E) as (d & a & E1 & E2 & [-> C O _ _]).
  exists d. rewrite app_nil_r in E2. split; [exact E1|split; [exact E2|split; [|split; [|exact O]]]]; intros pre x po ->; apply (C pre x po eq_refl).
Qed.
(** The same of all groups but for the permission. *)
Theorem C87_calls : forall fp w g opt cr force v s s' r,
  put_group fp w g opt cr force v s = (s', r) ->
  exists d, s_acts s' = s_acts s ++ d /\ s_val s' = s_val s /\
    during (s_acts s) d (put_call (fun _ _ => True) (g_fields g) v) /\
    during (s_acts s) d (under_lock (g_fields g)) /\
    subseq (written d) (map chan_name (g_fields g)).
Proof.
  intros fp w g opt cr force v s s' r E. destruct (put_any fp w g opt cr force v _ _ _ E) as (d & a & E1 & E2 & [-> C O _ _]).
  exists d. rewrite app_nil_r in E2. split; [exact E1|split; [exact E2|split; [|split; [|exact O]]]]; intros pre x po ->; apply (C pre x po eq_refl).
Qed.
(** An atomic PUT does everything under one lock of all records of the group. *)
Theorem C87_one_lock : forall fp w g opt cr force v s s' r,
  atomic_of g opt = true -> put_group fp w g opt cr force v s = (s', r) ->
  s_acts s' = s_acts s \/
  exists m, s_acts s' = s_acts s ++ ALock (records_of (g_fields g)) :: m ++ [AUnlock (records_of (g_fields g))] /\
    (forall rs, ~ In (ALock rs) m /\ ~ In (AUnlock rs) m) /\
    forall f c, In f (g_fields g) -> cf_chan f = Some c -> In (ch_record c) (records_of (g_fields g)).
Proof.
  intros fp w g opt cr force v s s' r At E. destruct (put_any fp w g opt cr force v _ _ _ E) as (d & a & E1 & _ & [_ _ _ L _]).
  destruct (L At) as [-> | (m & -> & F)]; [left; rewrite app_nil_r in E1; exact E1|right].
  exists m. split; [exact E1|split; [|intros f c I Ec; exact (in_records _ _ _ I Ec)]].
  intros rs. rewrite Forall_forall in F. split; intros I; exact (F _ I).
Qed.
(** A PUT which succeeds wrote each field sent which can be written (an array which is not
    given excepted), and something the client sent was for a field. *)
Theorem C87_complete : forall fp w g opt cr force v s s' ,
  put_group fp w g opt cr force v s = (s', EOk tt) ->
  exists d, s_acts s' = s_acts s ++ d /\
    (forall f, In f (g_fields g) -> put_to v f -> carries (ftype f) -> In (chan_name f) (written d) \/ no_array (content v f)) /\
    (sn_marked v <> [] -> exists f, In f (g_fields g) /\ (put_to v f \/ ftype f = MProc)).
Proof.
  intros fp w g opt cr force v s s' E. destruct (put_any fp w g opt cr force v _ _ _ E) as (d & a & E1 & _ & [_ _ _ _ K]).
  destruct (K eq_refl) as (K1 & K2). exists d. auto.
Qed.
(** A field which the client may never write is not written and the PUT fails. *)
Theorem C87_denied : forall fp w g opt cr force v s s' r f,
  atomic_of g opt = true \/ (forall f, In f (g_fields g) -> cf_chan f <> None) ->
  put_group fp w g opt cr force v s = (s', r) ->
  In f (g_fields g) -> put_to v f -> carries (ftype f) -> ~ no_array (content v f) -> (forall h, ~ allowed w h (chan_name f) cr) ->
  r <> EOk tt /\ exists d, s_acts s' = s_acts s ++ d /\ ~ In (chan_name f) (written d).
Proof.
  intros fp w g opt cr force v s s' r f Hc E I P C NA ND.
  destruct (put_allowed fp w g opt cr force v Hc _ _ _ E) as (d & a & E1 & _ & [_ Ca _ _ K]).
  assert (N : ~ In (chan_name f) (written d)).
  { intros W. apply written_in in W. destruct W as (x & W). apply in_split in W. destruct W as (l1 & l2 & ->).
    destruct (Ca l1 (AWrite (chan_name f) x) l2 eq_refl) as ((Al & _) & _). exact (ND _ Al). }
  split; [|exists d; auto]. intros ->. destruct (K eq_refl) as (K1 & _). destruct (K1 f I P C) as [W | W]; [exact (N W)|exact (NA W)].
Qed.
(** A PUT which is refused may have written part: here A is written, then B is refused. *)
Theorem C87_partial_refuted : exists g s' v, o_group true [("a", o_field "A" "" MPlain 0); ("b", o_field "B" "" MPlain 1)]%string = JOk g /\
  v = o_sent [([bs "a"], 1); ([bs "b"], 2)] /\
  put_group no_fpu (o_world (fun ch => str_eqb ch (bs "A"))) g None o_creds Unset v s0 = (s', EErr FDenied) /\
  written (s_acts s') = [bs "A"].
Proof. eexists. eexists. eexists. split; [vm_compute; reflexivity|]. split; [reflexivity|]. split; vm_compute; reflexivity. Qed.
(** In a group with a field without channel a PUT which is not atomic checks the permission
    of another field: B is written, although the client may only write A. *)
Theorem C87_permission_refuted : exists g s' v,
  o_group false [("c", o_const 1); ("a", o_field "A" "" MPlain 0); ("b", o_field "B" "" MPlain 1)]%string = JOk g /\
  v = o_sent [([bs "b"], 2)] /\
  put_group no_fpu (o_world (fun ch => str_eqb ch (bs "A"))) g None o_creds Unset v s0 = (s', EOk tt) /\
  written (s_acts s') = [bs "B"] /\ forall h, ~ allowed (o_world (fun ch => str_eqb ch (bs "A"))) h (bs "B") o_creds.
Proof.
  eexists. eexists. eexists. split; [vm_compute; reflexivity|]. split; [reflexivity|]. split; [vm_compute; reflexivity|]. split; [vm_compute; reflexivity|].
  intros h (n & _ & E). vm_compute in E. discriminate.
Qed.
(** The record of a Proc field is processed although the client may write nothing. *)
Theorem C87_proc_refuted : exists g s' v, o_group true [("p", o_field "A" "" MProc 0); ("b", o_field "B" "" MPlain 1)]%string = JOk g /\
  v = o_sent [] /\ put_group no_fpu (o_world (fun _ => false)) g None o_creds Unset v s0 = (s', EOk tt) /\ In (AProcess 0) (s_acts s').
Proof. eexists. eexists. eexists. split; [vm_compute; reflexivity|]. split; [reflexivity|]. split; [vm_compute; reflexivity|]. right. left. reflexivity. Qed.
(** A value sent for the member value alone of a Scalar field is reported as no change. *)
Theorem C87_member_refuted : exists g s' v, o_group true [("a", o_field "A" "" MScalar 0)]%string = JOk g /\
  v = o_sent [([bs "a"; bs "value"], 1)] /\ put_group no_fpu (o_world (fun _ => true)) g None o_creds Unset v s0 = (s', EErr FNothing) /\
  written (s_acts s') = [].
Proof. eexists. eexists. eexists. split; [vm_compute; reflexivity|]. split; [reflexivity|]. split; vm_compute; reflexivity. Qed.
Example C87_example : exists g s' v, o_group true [("a", o_field "A" "" MPlain 2); ("b", o_field "B" "" MPlain 1)]%string = JOk g /\
  v = o_sent [([bs "a"], 1); ([bs "b"], 2)] /\ atomic_of g None = true /\ (forall f, In f (g_fields g) -> cf_chan f <> None /\ carries (ftype f)) /\
  put_group no_fpu (o_world (fun _ => true)) g None o_creds Unset v s0 = (s', EOk tt) /\
  s_acts s' = [ALock [1%nat; 0%nat]; AWrite (bs "B") (WNum DLong 2); AProcess 1; AWrite (bs "A") (WNum DDouble 1); AProcess 0; AUnlock [1%nat; 0%nat]].
Proof.
  eexists. eexists. eexists. split; [vm_compute; reflexivity|]. split; [reflexivity|]. split; [reflexivity|]. split; [|split; vm_compute; reflexivity].
  intros f [<- | [<- | []]]; (split; [discriminate|exact I]).
Qed.
Example C87_example_denied : exists g f v, o_group true [("a", o_field "A" "" MPlain 0); ("b", o_field "B" "" MPlain 1)]%string = JOk g /\
  v = o_sent [([bs "a"], 1); ([bs "b"], 2)] /\ In f (g_fields g) /\ put_to v f /\ ~ no_array (content v f) /\
  forall h, ~ allowed (o_world (fun ch => str_eqb ch (bs "A"))) h (chan_name f) o_creds.
Proof.
  eexists. eexists. eexists. split; [vm_compute; reflexivity|]. split; [reflexivity|]. split; [right; left; reflexivity|]. split.
  - split; [split; discriminate|]. exists [bs "b"], []. split; [right; left; reflexivity|reflexivity].
  - split; [vm_compute; discriminate|]. intros h (n & _ & E). vm_compute in E. discriminate.
Qed.

(** ** More about the creation of groups *)
(** The type a channel is seen as, by explicit tables. *)
Theorem C86_channel : forall c code, GroupSpec.shows c code ->
  code = (if ch_elems c =? 1 then scalar_code (ch_type c)
          else match ch_type c with DChar => if ch_text c then tc_String else array_code DChar | t => array_code t end).
Proof.
  intros c code H. destruct H as [c Et Ne Tx Li | c Eq Li | c Ne Li Nt].
  - rewrite Et, Tx. apply Z.eqb_neq in Ne. rewrite Ne. reflexivity.
  - rewrite Eq. destruct (ch_type c); reflexivity.
  - apply Z.eqb_neq in Ne. rewrite Ne. destruct (ch_type c); try reflexivity. destruct (ch_text c); [|reflexivity]. exfalso. apply Nt. auto.
Qed.
(** A record with a definition which is refused does not keep those of other records from
    being read. *)
Theorem C83_go_on : forall fp a r t b cs cs1 cs2,
  load_records fp a cs = (cs1, JOk tt) -> parse_config fp (Some r) t cs1 = (cs2, JThrow) ->
  load_records fp (a ++ (r, t) :: b) cs = load_records fp b cs2.
Proof.
  intros fp a. induction a as [|(n & u) a IH]; intros r t b cs cs1 cs2 E1 E2; cbn [load_records app] in *.
  - inversion E1; subst. rewrite E2. reflexivity.
  - destruct (parse_config fp (Some n) u cs) as (cs' & [x| | |]); try discriminate; apply (IH r t b cs' cs1 cs2 E1 E2).
Qed.

(** ** C88: GET of a group *)
Lemma each_shows fp w m l : forall s s',
  each (fun f => match ftype f with MProc | MStructure => ret tt | _ => get_field fp (frozen w m) f end) l s = (s', EOk tt) ->
  exists ps, s_val s' = s_val s ++ concat ps /\
    Forall2 (fun f p => match ftype f with MProc | MStructure => p = [] | _ => shows fp w m f p end) l ps.
Proof.
  induction l as [|f l IH]; intros s s' E; cbn [each] in E.
  - unfold ret in E. inversion E; subst. exists []. rewrite app_nil_r. split; [reflexivity|constructor].
  - unfold seq, bind in E.
    assert (H : exists d p r, forall s, (match ftype f with MProc | MStructure => ret tt | _ => get_field fp (frozen w m) f end) s =
       ({| s_acts := s_acts s ++ d; s_val := s_val s ++ p |}, r)).
    { destruct (ftype f); try apply steady_get_field; apply steady_ret. }
    destruct H as (d & p & r & H). rewrite H in E. destruct r as [[] | |]; try discriminate.
    destruct (IH _ _ E) as (ps & Ev & F). exists (p :: ps). cbn [s_val concat] in *. split; [rewrite Ev, <- app_assoc; reflexivity|]. constructor; [|exact F].
    assert (S : (match ftype f with MProc | MStructure => ret tt | _ => get_field fp (frozen w m) f end) = get_field fp (frozen w m) f -> shows fp w m f p).
    { intros Eq s1. exists {| s_acts := s_acts s1 ++ d; s_val := s_val s1 ++ p |}. split; [rewrite <- Eq; apply H|reflexivity]. }
    destruct (ftype f); try (apply S; reflexivity).
    + specialize (H s0). unfold ret in H. inversion H. reflexivity.
    + specialize (H s0). unfold ret in H. inversion H. reflexivity.
Qed.
(** An atomic GET shows all fields as they are at one moment, while it holds the lock. *)
Theorem C88_snapshot : forall fp w g opt rec hist s s',
  seen w hist -> locks_work rec hist -> places rec (g_fields g) -> atomic_of g opt = true ->
  get_group fp w g opt s = (s', EOk tt) ->
  exists m pieces, m = hist (s_acts s ++ [ALock (records_of (g_fields g))]) /\
    s_val s' = s_val s ++ (p3 "record" "_options" "atomic", PBool true) :: concat pieces /\
    Forall2 (fun f p => match ftype f with MProc | MStructure => p = [] | _ => shows fp w m f p end) (g_fields g) pieces.
Proof.
  intros fp w g opt rec hist s s' Hs Hl Hp At E. rewrite (get_snapshot fp w g opt rec hist s Hs Hl Hp At) in E.
  set (m := hist (s_acts s ++ [ALock (records_of (g_fields g))])) in *. unfold get_group, seq, bind in E. rewrite At in E. unfold assign, with_lock in E. cbn [s_acts s_val] in E.
  destruct (each _ _ _) as (s1 & r1) eqn:E1 in E. inversion E; subst. clear E. cbn [s_val].
  destruct (each_shows fp w m _ _ _ E1) as (ps & Ev & F). cbn [s_val] in Ev. exists m, ps. split; [reflexivity|split; [|exact F]].
  rewrite Ev, <- app_assoc. reflexivity.
Qed.
(** A GET which is not atomic shows each field as it is at some moment of the GET. *)
Theorem C88_pieces : forall fp w g opt rec hist s s',
  seen w hist -> locks_work rec hist -> places rec (g_fields g) -> atomic_of g opt = false ->
  get_group fp w g opt s = (s', EOk tt) ->
  exists d pieces, s_acts s' = s_acts s ++ d /\
    s_val s' = s_val s ++ (p3 "record" "_options" "atomic", PBool false) :: concat pieces /\
    Forall2 (fun f p => p = [] /\ (cf_chan f = None \/ ftype f = MProc) \/
                        exists pre post, d = pre ++ post /\ shows fp w (hist (s_acts s ++ pre)) f p) (g_fields g) pieces.
Proof. exact get_apart. Qed.
(** A GET changes nothing, and reads each channel while its record is locked. *)
Theorem C88_reads : forall fp w g opt s s' r, get_group fp w g opt s = (s', r) ->
  exists d, s_acts s' = s_acts s ++ d /\ (forall a, In a d -> ~ changes a) /\ during (s_acts s) d (under_lock (g_fields g)).
Proof.
  intros fp w g opt s s' r E. destruct (calls_get_group fp w g opt _ _ _ E) as (d & a & E1 & _ & D). exists d. split; [exact E1|]. split.
  - intros x I. apply in_split in I. destruct I as (l1 & l2 & ->). exact (proj1 (D l1 x l2 eq_refl)).
  - intros pre x po ->. exact (proj2 (D pre x po eq_refl)).
Qed.
(** A GET succeeds when the database answers. *)
Theorem C88_succeeds : forall fp w g opt s, answers w -> wired (g_fields g) -> exists s', get_group fp w g opt s = (s', EOk tt).
Proof.
  intros fp w g opt s Ha Hw. destruct (get_group fp w g opt s) as (s' & r) eqn:E. destruct (fine_get_group fp w Ha g opt Hw _ _ _ E) as (d & v & _ & _ & ->). eauto.
Qed.
(** The reply has every member: value, alarm and time of Scalar fields, and the others. *)
Theorem C88_complete : forall fp w g opt s s' f p,
  get_group fp w g opt s = (s', EOk tt) -> In f (g_fields g) -> cf_any f <> Some tc_Struct -> atomic_of g opt = true \/ cf_chan f <> None ->
  In p (expected f) -> exists v, In (node_of f ++ p, v) (s_val s').
Proof.
  intros fp w g opt s s' f p E I Na At Ip. destruct (get_complete fp w g opt f I Na At _ _ _ E) as (d & a & _ & Ev & H).
  destruct (H eq_refl (node_of f ++ p) (in_map _ _ _ Ip)) as (v & Iv). exists v. rewrite Ev. apply in_or_app. right. exact Iv.
Qed.
(** Groups made from a sound configuration are such. *)
Theorem C88_made : forall db name g, GroupSpec.sound_group db g -> (forall x, In x (gc_fields g) -> GroupSpec.kept x -> servable db x) ->
  exists grp, create_group db (define_group name g) = JOk grp /\ wired (g_fields grp) /\ triggers_exist grp /\
    (forall f, In f (g_fields grp) -> ftype f = MConst -> cf_chan f = None) /\ places (fun n => match db n with Some c => ch_record c | None => 0%nat end) (g_fields grp).
Proof.
  intros db name g Sg Sv. destruct (GroupProps.C85_created db name g Sg) as (grp & xs & E & (O & _) & _ & _ & M & T).
  exists grp. split; [exact E|].
  assert (X : forall f, In f (g_fields grp) -> exists x, In x (gc_fields g) /\ GroupSpec.kept x /\ GroupSpec.made db x f).
  { intros f I. clear - M I O. assert (H : exists x, In x xs /\ GroupSpec.made db x f).
    { clear O. induction M as [|x f' xs fs Hm M IH]; [destruct I|]. destruct I as [-> | I]; [exists x; split; [left; reflexivity|exact Hm]|].
      destruct (IH I) as (y & Iy & Hy). exists y. split; [right; exact Iy|exact Hy]. }
    destruct H as (x & Ix & Hm). apply O in Ix. exists x. tauto. }
  assert (Mk : forall x, In x (gc_fields g) -> GroupSpec.kept x -> fc_channel (snd x) <> [] -> exists c, db (fc_channel (snd x)) = Some c).
  { intros x I K N. destruct Sg as (_ & F). destruct (F x I K) as ((_ & H) & _). destruct (H N) as (c & Ec & _). eauto. }
  assert (Ch : forall (x : str * fconf) f, fc_channel (snd x) <> [] -> GroupSpec.made db x f -> cf_chan f = db (fc_channel (snd x))).
  { intros x f N (_ & _ & Ec). rewrite Ec. destruct (fc_channel (snd x)); [contradiction|reflexivity]. }
  split; [|split; [|split]].
  - intros f I. destruct (X f I) as (x & Ix & K & Hm). pose proof (Sv x Ix K) as S. pose proof (proj1 (Forall_forall _ _) (create_any _ _ _ E) f I) as An. unfold any_ok in An.
    unfold servable in S. unfold ftype in *. rewrite (proj1 (proj2 Hm)) in *.
    destruct (fc_type (snd x)); try exact Logic.I.
    + destruct S as (N & S). destruct (Mk x Ix K N) as (c & Ec). exists c. rewrite (Ch x f N Hm), Ec. split; [reflexivity|]. apply S, Ec.
    + destruct S as (N & S). destruct (Mk x Ix K N) as (c & Ec). exists c. rewrite (Ch x f N Hm), Ec. split; [reflexivity|]. apply S, Ec.
    + destruct S as (N & S). destruct (Mk x Ix K N) as (c & Ec). exists c. rewrite (Ch x f N Hm), Ec in *. split; [reflexivity|]. split; [apply S; reflexivity|]. apply An; reflexivity.
    + destruct S as (N & S). destruct (Mk x Ix K N) as (c & Ec). exists c. rewrite (Ch x f N Hm), Ec. split; [reflexivity|]. apply S, Ec.
    + apply S.
  - intros f j I J. apply In_nth_error in I. destruct I as (i & Ei).
    assert (L : length xs = length (g_fields grp)) by (clear - M; induction M; cbn; congruence).
    destruct (nth_error xs i) as [x|] eqn:Ex.
    + pose proof (T i x f Ex Ei) as H. destruct (is_nil (fc_channel (snd x))); [rewrite H in J; destruct J|].
      apply H in J. destruct J as (h & Eh & _). rewrite <- L. apply nth_error_Some. congruence.
    + apply nth_error_None in Ex. exfalso. apply (proj1 (nth_error_None _ _)) in Ex || idtac. assert (i < length (g_fields grp))%nat by (apply nth_error_Some; congruence). lia.
  - intros f I Ht. destruct (X f I) as (x & Ix & K & Hm). pose proof (Sv x Ix K) as S. unfold servable in S. unfold ftype in Ht. rewrite (proj1 (proj2 Hm)) in Ht.
    rewrite Ht in S. destruct Hm as (_ & _ & ->). rewrite (proj1 S). reflexivity.
  - intros f c I Ec. destruct (X f I) as (x & Ix & K & Hm). unfold chan_name. destruct Hm as (_ & -> & Ec'). rewrite Ec' in Ec. destruct (is_nil (fc_channel (snd x))); [discriminate|].
    rewrite Ec. reflexivity.
Qed.
(** A Const field is not in the reply of a GET which is not atomic. *)
Theorem C88_const_refuted : exists g s', o_group false [("c", o_const 1); ("a", o_field "A" "" MPlain 0)]%string = JOk g /\
  get_group no_fpu (o_world (fun _ => true)) g None s0 = (s', EOk tt) /\
  s_val s' = [(p3 "record" "_options" "atomic", PBool false); ([bs "a"], PReal 7)].
Proof. eexists. eexists. split; [vm_compute; reflexivity|]. split; vm_compute; reflexivity. Qed.
Example C88_example : exists g s', o_group true [("a", o_field "A" "" MScalar 0); ("c", o_const 1); ("s", o_field "S" "" MPlain 0)]%string = JOk g /\
  wired (g_fields g) /\ places o_rec (g_fields g) /\ atomic_of g None = true /\
  get_group no_fpu (o_world (fun _ => true)) g None s0 = (s', EOk tt) /\
  In ([bs "c"], PInt 1) (s_val s') /\ In ([bs "s"], PStr (bs "text")) (s_val s') /\ In ([bs "a"; bs "value"], PReal 7) (s_val s') /\
  In ([bs "a"; bs "alarm"; bs "message"], PStr (bs "HIHI")) (s_val s').
Proof.
  eexists. eexists. split; [vm_compute; reflexivity|]. split; [|split; [|split; [reflexivity|split; [vm_compute; reflexivity|]]]].
  - intros f I. destruct I as [<- | [<- | [<- | []]]]; cbv -[readable o_chan]; [discriminate| |];
      (eexists; split; [reflexivity|]); unfold readable; cbn; repeat split; try discriminate; lia.
  - intros f c I E. destruct I as [<- | [<- | [<- | []]]]; cbn in E; try discriminate; inversion E; subst; vm_compute; reflexivity.
  - cbn [s_val In]. repeat split; tauto.
Qed.

Print Assumptions C87_permitted.
Print Assumptions C87_calls.
Print Assumptions C87_one_lock.
Print Assumptions C87_complete.
Print Assumptions C87_denied.
Print Assumptions C87_partial_refuted.
Print Assumptions C87_permission_refuted.
Print Assumptions C87_proc_refuted.
Print Assumptions C87_member_refuted.
Print Assumptions C88_snapshot.
Print Assumptions C88_pieces.
Print Assumptions C88_reads.
Print Assumptions C88_succeeds.
Print Assumptions C88_complete.
Print Assumptions C88_made.
Print Assumptions C88_const_refuted.
Print Assumptions C86_channel.
Print Assumptions C83_go_on.
