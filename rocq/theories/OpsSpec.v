(** What users of an IOC rely on when they GET, PUT and MONITOR its PVs, without
    the functions of the model. *)
From Coq Require Import String ZArith List Bool Sorted.
From Verif Require Import Base WireModel TypeModel TextModel ValueModel MarkModel CopyModel NtModel GroupModel OpsModel.
Import ListNotations.
Local Open Scope Z_scope.

(** ** Calls to the database *)

(** Record [r] is locked after the calls [h]: a lock with it was taken and was not
    given back since. *)
Definition held (h : list act) (r : nat) : Prop :=
  exists pre rs post, h = pre ++ ALock rs :: post /\ In r rs /\ ~ In (AUnlock rs) post.
(** Calls which change the database. *)
Definition changes (a : act) : Prop :=
  match a with AWrite _ _ | AProcess _ | AReprocess _ => True | _ => False end.
(** Each of the calls [d], made after [h], satisfies [P] of the calls before it. *)
Definition during (h d : list act) (P : list act -> act -> Prop) : Prop :=
  forall pre a post, d = pre ++ a :: post -> P (h ++ pre) a.
(** The channels written, in order. *)
Definition written (d : list act) : list str :=
  flat_map (fun a => match a with AWrite ch _ => [ch] | _ => [] end) d.
Inductive subseq {A} : list A -> list A -> Prop :=
| ss_nil : subseq [] []
| ss_keep : forall x a b, subseq a b -> subseq (x :: a) (x :: b)
| ss_skip : forall x a b, subseq a b -> subseq a (x :: b).

(** ** Permission *)

(** Access security lets one of the names of the client write the channel. *)
Definition allowed (w : world) (h : list act) (ch : str) (cr : creds) : Prop :=
  exists n, In n (cr_names cr) /\ w_allow w h ch (cr_host cr) n = true.

(** ** What a client sent *)

(** The member at [p] or a structure around it is marked. *)
Definition covers (v : sent) (p : list str) : Prop := exists m rest, In m (sn_marked v) /\ p = m ++ rest.
(** A field which a PUT can write. *)
Definition writable (f : cfield) : Prop := cf_chan f <> None /\ fc_order (cf_conf f) <> no_order.
(** A PUT writes field [f] to its channel. *)
Definition put_to (v : sent) (f : cfield) : Prop := writable f /\ covers v (node_of f).

(** ** Moments of the database *)

Record moment := {
  mo_meta : str -> option meta;
  mo_props : str -> option props;
  mo_value : str -> option raw }.
(** a database which stays as it is at a moment *)
Definition frozen (w : world) (m : moment) : world :=
  {| w_attr := w_attr w; w_allow := w_allow w; w_disp := w_disp w; w_pact := w_pact w; w_scan := w_scan w;
     w_meta := fun _ => mo_meta m; w_props := fun _ => mo_props m; w_value := fun _ => mo_value m;
     w_put := w_put w; w_process := w_process w; w_alarm_name := w_alarm_name w |}.
(** [hist h]: the database when the calls [h] were made; reads see it. *)
Definition seen (w : world) (hist : list act -> moment) : Prop :=
  forall h ch, w_meta w h ch = mo_meta (hist h) ch /\ w_props w h ch = mo_props (hist h) ch /\ w_value w h ch = mo_value (hist h) ch.
Definition same_at (a b : moment) (ch : str) : Prop :=
  mo_meta a ch = mo_meta b ch /\ mo_props a ch = mo_props b ch /\ mo_value a ch = mo_value b ch.
(** While a record is locked, its channels stay the same unless this thread changes
    something.  [rec]: the record of a channel. *)
Definition locks_work (rec : str -> nat) (hist : list act -> moment) : Prop :=
  forall h a ch, held h (rec ch) -> held (h ++ [a]) (rec ch) -> ~ changes a -> same_at (hist h) (hist (h ++ [a])) ch.
(** The fields know the records of their channels. *)
Definition places (rec : str -> nat) (l : list cfield) : Prop :=
  forall f c, In f l -> cf_chan f = Some c -> ch_record c = rec (chan_name f).
(** A field which shows something of its channel has a channel. *)
Definition linked (l : list cfield) : Prop :=
  forall f, In f l -> match ftype f with MScalar | MPlain | MAny | MMeta | MProc => cf_chan f <> None | _ => True end.

(** ** What a PUT may do *)

(** The content sent for a field: for a Scalar mapping the member value, of an enum its
    index; for an Any what is inside. *)
Definition content (v : sent) (f : cfield) : sdata :=
  match ftype f with
  | MScalar => match sn_at v (node_of f ++ [bs "value"]) with
               | SStruct => sn_at v (node_of f ++ [bs "value"; bs "index"])
               | d => d
               end
  | MAny => sn_at v (node_of f ++ [bs "->"])
  | _ => sn_at v (node_of f)
  end.
(** A mapping which puts data into its record. *)
Definition carries (t : mtype) : Prop := match t with MScalar | MPlain | MAny => True | _ => False end.
(** An array which was not given. *)
Definition no_array (d : sdata) : Prop := d = SLeaf (PArr ANull).

(** Integers which a field of a record of this type can hold; an enum by an index of
    less than 2^15. *)
Definition fits (t : dbr) (z : Z) : Prop :=
  match t with
  | DChar => - 2 ^ 7 <= z < 2 ^ 7
  | DShort => - 2 ^ 15 <= z < 2 ^ 15
  | DLong => - 2 ^ 31 <= z < 2 ^ 31
  | DInt64 => - 2 ^ 63 <= z < 2 ^ 63
  | DUChar => 0 <= z < 2 ^ 8
  | DUShort => 0 <= z < 2 ^ 16
  | DEnum => 0 <= z < 2 ^ 15
  | DULong => 0 <= z < 2 ^ 32
  | DUInt64 => 0 <= z < 2 ^ 64
  | _ => False
  end.
(** Text without a NUL. *)
Definition plain_text (s : str) : Prop := ~ In 0 s.
(** What is written to channel [c] for the content [d] is the same data: numbers which
    fit, text which fits, long text with a final NUL, arrays. *)
Record wrote (c : chan) (d : sdata) (x : wdata) : Prop := {
  wr_int : forall z, ch_elems c = 1 -> d = SLeaf (PInt z) \/ d = SLeaf (PUInt z) -> fits (ch_type c) z -> x = WNum (ch_type c) z;
  wr_real : forall z, ch_elems c = 1 -> ch_type c = DDouble -> d = SLeaf (PReal z) -> x = WNum DDouble z;
  wr_text : forall s, ch_elems c = 1 -> ch_type c = DString -> d = SLeaf (PStr s) -> plain_text s -> (length s <= 39)%nat -> x = WText s;
  wr_long : forall s, ch_elems c <> 1 -> ch_type c = DChar -> d = SLeaf (PStr s) -> x = WChars (s ++ [0]);
  wr_texts : forall l, ch_elems c <> 1 -> ch_type c = DString -> d = SLeaf (PArr (AStr l)) ->
               Forall (fun s => (length s <= 39)%nat) l -> x = WTexts l;
  wr_array : forall t l, ch_elems c <> 1 -> ch_type c <> DString -> d = SLeaf (PArr (APod t l)) -> x = WPod t l }.
(** A PUT writes only channels of fields which the client sends, each when [perm] holds and
    what was sent, and lets records process only for those and for Proc fields. *)
Definition put_call (perm : list act -> str -> Prop) (fields : list cfield) (v : sent) (h : list act) (a : act) : Prop :=
  match a with
  | AWrite ch x => perm h ch /\ exists f c, In f fields /\ cf_chan f = Some c /\ chan_name f = ch /\ put_to v f /\
                     (carries (ftype f) -> wrote c (content v f) x)
  | AProcess r | AReprocess r =>
      exists f c, In f fields /\ cf_chan f = Some c /\ ch_record c = r /\ (put_to v f \/ ftype f = MProc)
  | ARead _ => False
  | ALock _ | AUnlock _ => True
  end.
(** A call which changes the database is made while the record of the channel is locked. *)
Definition under_lock (fields : list cfield) (h : list act) (a : act) : Prop :=
  match a with
  | AWrite ch _ => exists f c, In f fields /\ cf_chan f = Some c /\ chan_name f = ch /\ held h (ch_record c)
  | ARead ch => exists f c, In f fields /\ cf_chan f = Some c /\ chan_name f = ch /\ held h (ch_record c)
  | AProcess r | AReprocess r => held h r
  | _ => True
  end.
(** ** What a GET shows *)

(** What field [f] alone adds to a reply when the database stands still at [m]. *)
Definition shows (fp : fpu) (w : world) (m : moment) (f : cfield) (a : list assignment) : Prop :=
  forall s, exists s', get_field fp (frozen w m) f s = (s', EOk tt) /\ s_val s' = s_val s ++ a.
(** Channels which QSRV serves. *)
Definition readable (c : chan) : Prop := ch_link c = false /\ ch_type c <> DNoAccess /\ 1 <= ch_elems c.
(** The type of one element of a channel, and of an array (codes of src/pvxs/data.h). *)
Definition scalar_code (t : dbr) : Z :=
  match t with
  | DString => tc_String | DChar => 0x20 | DUChar => 0x24 | DShort => 0x21 | DUShort | DEnum => 0x25
  | DLong => 0x22 | DULong => 0x26 | DInt64 => 0x23 | DUInt64 => 0x27
  | DFloat => 0x42 | DDouble => 0x43 | DNoAccess => tc_Null
  end.
Definition array_code (t : dbr) : Z :=
  match t with
  | DString => tc_StringA | DChar => 0x28 | DUChar => 0x2c | DShort => 0x29 | DUShort | DEnum => 0x2d
  | DLong => 0x2a | DULong => 0x2e | DInt64 => 0x2b | DUInt64 => 0x2f
  | DFloat => 0x4a | DDouble => 0x4b | DNoAccess => tc_Null
  end.
(** The type which an Any holds. *)
Definition any_code (c : chan) : Z := if ch_elems c =? 1 then scalar_code (ch_type c) else array_code (ch_type c).
(** What the creation of a group gives: channels where a mapping needs one, the type of
    an Any, the value of a Const. *)
Definition wired (l : list cfield) : Prop :=
  forall f, In f l ->
    match ftype f with
    | MScalar => exists c, cf_chan f = Some c /\ readable c /\ (ch_type c = DEnum -> ch_elems c = 1)
    | MPlain | MMeta => exists c, cf_chan f = Some c /\ readable c
    | MAny => exists c, cf_chan f = Some c /\ readable c /\ cf_any f = Some (any_code c)
    | MConst => fc_const (cf_conf f) <> None
    | MProc | MStructure => True
    end.
(** Reads of the database succeed. *)
Definition answers (w : world) : Prop :=
  forall h ch, w_meta w h ch <> None /\ w_props w h ch <> None /\ w_value w h ch <> None.
(** The members a field of a reply must have. *)
Definition expected (f : cfield) : list (list str) :=
  let time := [p2 "timeStamp" "secondsPastEpoch"; p2 "timeStamp" "nanoseconds"; p2 "timeStamp" "userTag";
               p2 "alarm" "status"; p2 "alarm" "severity"; p2 "alarm" "message"] in
  match ftype f with
  | MScalar => (if match cf_chan f with Some c => is_enum (ch_type c) | None => false end then p2 "value" "index" else [bs "value"]) :: time
  | MMeta => time
  | MPlain | MAny | MConst => [[]]
  | MProc | MStructure => []
  end.

(** ** What a MONITOR of a group posts *)

(** What a change of kind [x] of field [f] adds when the database stands still at [m]. *)
Definition part_of (fp : fpu) (w : world) (m : moment) (f : cfield) (x : change) (a : list assignment) : Prop :=
  forall s, exists s', read_field fp (frozen w m) x f s = (s', EOk tt) /\ s_val s' = s_val s ++ a.
(** Events which the IOC delivers: those of fields which were subscribed to. *)
Definition has_event (g : group) (e : sevent) : Prop :=
  match e with
  | SValue i _ => exists f, nth_error (g_fields g) i = Some f /\ cf_chan f <> None /\ ftype f <> MConst
  | SProps i => exists f, nth_error (g_fields g) i = Some f /\ cf_chan f <> None /\ (ftype f = MScalar \/ ftype f = MMeta)
  | SStart => True
  end.
(** What event [e] adds at the moment [m]: an event of a value shows the fields it
    triggers, each with value and alarm, itself with what changed; one of properties the
    properties of its field. *)
Definition event_shows (fp : fpu) (w : world) (g : group) (m : moment) (e : sevent) (a : list assignment) : Prop :=
  match e with
  | SValue i x =>
      exists f ps, nth_error (g_fields g) i = Some f /\ a = concat ps /\
        Forall2 (fun j p => exists t, nth_error (g_fields g) j = Some t /\
                    part_of fp w m t (if (j =? i)%nat then x else value_alarm) p) (cf_trig f) ps
  | SProps i => exists f, nth_error (g_fields g) i = Some f /\ part_of fp w m f props_only a
  | SStart => a = []
  end.
(** Triggers are positions of fields. *)
Definition triggers_exist (g : group) : Prop :=
  forall f j, In f (g_fields g) -> In j (cf_trig f) -> (j < length (g_fields g))%nat.
(** All events which a client must wait for. *)
Definition all_first (g : group) (l : list sevent) : Prop :=
  forall i f, nth_error (g_fields g) i = Some f -> cf_chan f <> None ->
    (exists x, In (SValue i x) l) /\ (ftype f = MScalar \/ ftype f = MMeta -> In (SProps i) l).

(** ** The content of replies *)

(** Member [p] of a reply has the content [v]. *)
Definition content_at (a : list assignment) (p : list str) (v : src) : Prop :=
  In (p, v) a /\ forall v', In (p, v') a -> v' = v.
(** The member for the value of field [f]. *)
Definition value_member (f : cfield) (c : chan) : list str :=
  match ftype f with
  | MScalar => if is_enum (ch_type c) then node_of f ++ p2 "value" "index" else node_of f ++ [bs "value"]
  | _ => node_of f
  end.
(** A number of the type of the channel, as content. *)
Definition number (fp : fpu) (t : dbr) (z : Z) : src :=
  match t with
  | DChar | DShort | DLong | DInt64 => PInt z
  | DUChar | DUShort | DEnum | DULong | DUInt64 => PUInt z
  | DFloat => PReal (fp_widen fp z)
  | _ => PReal z
  end.
Definition is_number (t : dbr) : Prop := match t with DString | DNoAccess => False | _ => True end.
(** Status of an alarm: none, device, driver, record, database, and others. *)
Definition status_of (s : Z) : Z :=
  if s =? 0 then 0                              (* NO_ALARM *)
  else if (1 <=? s) && (s <=? 8) || (s =? 11) then 1      (* READ .. COS, HWLIMIT: device *)
  else if (s =? 9) || (s =? 10) || (s =? 17) then 2       (* COMM, TIMEOUT, UDF..: driver *)
  else if (12 <=? s) && (s <=? 16) then 3                 (* CALC .. SOFT: record *)
  else if (18 <=? s) && (s <=? 21) then 4                 (* DISABLE .. WRITE_ACCESS: database *)
  else 6.

(** ** Single PVs *)

(** A single PV as a group with one field which is all of it. *)
Definition pv_field (c : chan) (ch : str) : cfield :=
  {| cf_path := []; cf_full := []; cf_chan := Some c; cf_any := None; cf_trig := [];
     cf_conf := {| fc_channel := ch; fc_trigger := []; fc_id := []; fc_type := MScalar; fc_order := 0; fc_const := None |} |}.
(** Writes made for a PUT with completion are those which it is asked to make. *)
Definition honest (notify : op unit -> op unit) : Prop :=
  forall x, (forall s s' r, x s = (s', r) -> exists d, s_acts s' = s_acts s ++ d) ->
  forall s s' r, notify x s = (s', r) ->
    exists d, s_acts s' = s_acts s ++ d /\
      forall ch y, In (AWrite ch y) d -> exists s0 s1 r1 d1, x s0 = (s1, r1) /\ s_acts s1 = s_acts s0 ++ d1 /\ In (AWrite ch y) d1.
(** What an event of a single PV adds at the moment [m]; the nanoseconds are not split. *)
Definition pv_shows (fp : fpu) (w : world) (c : chan) (ch : str) (m : moment) (e : s1event) (a : list assignment) : Prop :=
  forall s, exists s', ioc_get fp (frozen w m) MScalar None None 0 (match e with S1Value x => x | S1Props => props_only end) ch (Some c) [] s = (s', EOk tt)
                       /\ s_val s' = s_val s ++ a.

(** ** The members of a field *)

Definition given {A} (o : option A) (f : A -> list (list str * src)) : list (list str * src) :=
  match o with Some x => f x | None => [] end.
(** The members which the properties of a record are shown in; the precision goes with
    the limits. *)
Definition prop_list (p : props) : list (list str * src) :=
  given (pr_units p) (fun u => [(p2 "display" "units", PStr u)]) ++
  given (pr_enum p) (fun l => [(p2 "value" "choices", PArr (AStr l))]) ++
  given (pr_gr p) (fun x => [(p2 "display" "limitLow", PReal (fst x)); (p2 "display" "limitHigh", PReal (snd x))] ++
                            given (pr_prec p) (fun z => [(p2 "display" "precision", PInt z)])) ++
  given (pr_ctrl p) (fun x => [(p2 "control" "limitLow", PReal (fst x)); (p2 "control" "limitHigh", PReal (snd x))]) ++
  given (pr_al p) (fun x => [(p2 "valueAlarm" "lowAlarmLimit", PReal (fst (fst x))); (p2 "valueAlarm" "lowWarningLimit", PReal (snd (fst x)));
                             (p2 "valueAlarm" "highWarningLimit", PReal (fst (snd x))); (p2 "valueAlarm" "highAlarmLimit", PReal (snd (snd x)))]) ++
  [(p2 "display" "description", PStr (pr_desc p))].
(** Q:form of the field VAL *)
Definition form_list (i : option nat) : list (list str * src) :=
  (p3 "display" "form" "choices",
    PArr (AStr [bs "Default"; bs "String"; bs "Binary"; bs "Decimal"; bs "Hex"; bs "Exponential"; bs "Engineering"])) ::
  given i (fun i => [(p3 "display" "form" "index", PUInt (Z.of_nat i))]).
(** The text of an alarm: that of the record, else the name of its status. *)
Definition message_of (w : world) (x : meta) : str :=
  match c_str (m_amsg x) with
  | [] => if (m_status x =? 0) || (22 <=? m_status x) then [] else w_alarm_name w (m_status x)
  | t => t
  end.
Definition alarm_members (w : world) (x : meta) : list (list str * src) :=
  [(p2 "alarm" "status", PUInt (status_of (m_status x))); (p2 "alarm" "severity", PUInt (m_severity x));
   (p2 "alarm" "message", PStr (message_of w x))].
(** The time stamp of a record: seconds from 1990 become seconds from 1970, in 32 bits; the
    low bits of the nanoseconds which [mask] selects become the user tag. *)
Definition time_members (x : meta) (mask : Z) : list (list str * src) :=
  [(p2 "timeStamp" "secondsPastEpoch", PUInt ((m_sec x + 631152000) mod 2 ^ 32));
   (p2 "timeStamp" "nanoseconds", PUInt (Z.land (m_nsec x) (Z.lxor mask (2 ^ 32 - 1))));
   (p2 "timeStamp" "userTag", PUInt (if mask =? 0 then m_utag x else Z.land (m_nsec x) mask))].
(** The type of the field has the member. *)
Definition in_type (f : cfield) (c : chan) (q : list str) : Prop := has_member (node_members (ftype f) c) q = true.
Definition with_time (f : cfield) : Prop := ftype f = MScalar \/ ftype f = MMeta.
(** [v] shows the elements [r] of channel [c]: numbers, strings of up to 39 bytes, arrays,
    and characters as text when the channel is one of long strings ([long]). *)
Record shown (fp : fpu) (long : bool) (c : chan) (r : raw) (v : src) : Prop := {
  sh_num : ch_elems c = 1 -> is_number (ch_type c) -> forall z l, r = RNums (z :: l) -> v = number fp (ch_type c) z;
  sh_text : ch_elems c = 1 -> ch_type c = DString -> forall t l, r = RTexts (t :: l) -> plain_text t -> (length t <= 39)%nat -> v = PStr t;
  sh_texts : ch_elems c <> 1 -> ch_type c = DString -> forall l, r = RTexts l -> Forall (fun t => plain_text t /\ (length t <= 39)%nat) l -> v = PArr (AStr l);
  sh_array : ch_elems c <> 1 -> is_number (ch_type c) -> ~ (ch_type c = DChar /\ long = true) -> forall l, r = RNums l ->
               v = PArr (APod (array_code (ch_type c)) l);
  sh_long : 1 < ch_elems c -> ch_type c = DChar -> long = true -> forall l, r = RNums l -> Forall (fun z => 1 <= z <= 127) l ->
               Z.of_nat (length l) < ch_elems c -> v = PStr l }.
(** Long strings are shown as text, but not inside an Any. *)
Definition shows_text (f : cfield) (c : chan) : bool := match ftype f with MAny => false | _ => ch_text c end.
(** What a change of kind [x] of a field may show, and must: properties, time, alarm and
    value. *)
Record event_members (fp : fpu) (w : world) (m : moment) (f : cfield) (c : chan) (x : change) (mask : Z) (a : list assignment) : Prop := {
  em_props : ftype f = MScalar -> c_property x = true ->
     exists p, mo_props m (chan_name f) = Some p /\ forall q v, In (q, v) (prop_list p) -> in_type f c q -> content_at a (node_of f ++ q) v;
  em_time : with_time f -> c_value x = true \/ c_alarm x = true ->
     exists y, mo_meta m (chan_name f) = Some y /\ forall q v, In (q, v) (time_members y mask) -> content_at a (node_of f ++ q) v;
  em_alarm : with_time f -> c_alarm x = true ->
     exists y, mo_meta m (chan_name f) = Some y /\ forall q v, In (q, v) (alarm_members w y) -> content_at a (node_of f ++ q) v;
  em_value : carries (ftype f) -> c_value x = true ->
     exists r v, mo_value m (chan_name f) = Some r /\ shown fp (shows_text f c) c r v /\ content_at a (value_member f c) v;
  em_none : forall p v, In (p, v) a ->
     (carries (ftype f) /\ c_value x = true /\ p = value_member f c) \/
     (exists q, p = node_of f ++ q /\
       ((ftype f = MScalar /\ c_property x = true /\ exists p, mo_props m (chan_name f) = Some p /\ In (q, v) (prop_list p)) \/
        (with_time f /\ (c_value x = true \/ c_alarm x = true) /\ exists y, mo_meta m (chan_name f) = Some y /\ In (q, v) (time_members y mask)) \/
        (with_time f /\ c_alarm x = true /\ exists y, mo_meta m (chan_name f) = Some y /\ In (q, v) (alarm_members w y)))) }.
