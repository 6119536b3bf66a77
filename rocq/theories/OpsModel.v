(** Model of what an IOC (QSRV) does with GET, PUT and MONITOR of its PVs: the
    mapping between records and Values (ioc/iocsource.cpp), groups
    (ioc/groupsource.cpp), single PVs (ioc/singlesource.cpp) and permission
    (ioc/credentials.cpp, ioc/securityclient.cpp).

    The database is outside: [world] answers each call, and an answer may depend
    on all calls made so far, so other threads may change anything which is not
    locked.  What is said about locked records is in OpsSpec.

    Simplifications.  EPICS Base is 7.0.6 or later: DBR_AMSG, DBR_UTAG and 64 bit
    integers exist, and time and alarm are always available.  A Value being filled
    is the sequence of assignments to its members; conversion on assignment
    (Value::from()) is that of CopyModel and is not repeated here.  Filters of a
    channel (LocalFieldLog) are part of what a read gives.  Logging is left out.

    No proofs in this file. *)
From Coq Require Import String ZArith List Bool.
From Verif Require Import Base WireModel TypeModel TextModel ValueModel MarkModel CopyModel NtModel GroupModel.
Import ListNotations.
Local Open Scope Z_scope.

(** ** Credentials, ioc/credentials.cpp *)

(** server::ClientCredentials with what roles() gives *)
Record client := { cl_peer : str; cl_method : str; cl_account : str; cl_roles : list str }.
Record creds := { cr_host : str; cr_names : list str }.
(** what is before the first [c], all if there is none *)
Fixpoint before_first (c : Z) (s : str) : str :=
  match s with
  | [] => []
  | x :: s' => if x =? c then [] else x :: before_first c s'
  end.
(** Credentials::Credentials(), ioc/credentials.cpp:26-46 *)
Definition credentials (c : client) : creds :=
  {| cr_host := before_first 58 (cl_peer c);
     cr_names :=
       (if str_eqb (cl_method c) (bs "ca")
        then match cut_last 47 (cl_account c) with None => cl_account c | Some (_, a) => a end
        else cl_method c ++ 47 :: cl_account c)
       :: map (fun r => bs "role/" ++ r) (cl_roles c) |}.

(** ** The database *)

(** calls which others can observe: locks (DBManyLocker, DBLocker), reads
    (dbChannelGet()), writes (dbChannelPut()) and processing (dbProcess(), or
    rpro for a record which is active).  Records are numbered; a channel is its
    name. *)
Inductive wdata :=
| WNum (t : dbr) (z : Z)          (* one number; reals as bits *)
| WText (s : str)                 (* one string of at most 39 characters *)
| WChars (s : str)                (* characters with the final NUL *)
| WTexts (l : list str)
| WPod (t : Z) (l : list Z).      (* an array, by its type code *)
Inductive act :=
| ALock (rs : list nat)
| AUnlock (rs : list nat)
| ARead (ch : str)
| AWrite (ch : str) (d : wdata)
| AProcess (r : nat)
| AReprocess (r : nat).
(** alarm and time, properties, and the elements of a channel *)
Record meta := { m_status : Z; m_severity : Z; m_amsg : str; m_sec : Z; m_nsec : Z; m_utag : Z }.
Record props := {
  pr_units : option str; pr_prec : option Z; pr_enum : option (list str);
  pr_gr : option (Z * Z); pr_ctrl : option (Z * Z); pr_al : option (Z * Z * (Z * Z)); pr_desc : str }.
(** [RText]: what is in the 40 byte buffers *)
Inductive raw := RNums (l : list Z) | RTexts (l : list str).
(** fixed facts about a channel: SPC_ATTRIBUTE; the field DISP; the field PROC;
    pp(TRUE); a link by dbChannelFieldType(), and by dbChannelFinalFieldType();
    MappingInfo::nsecMask from "Q:time:tag"; for VAL the position of Q:form among the
    choices of display.form *)
Record cattr := {
  ca_attribute : bool; ca_disp : bool; ca_proc : bool; ca_passive : bool; ca_link : bool; ca_final_link : bool;
  ca_mask : Z; ca_form : option nat }.
Record world := {
  w_attr : str -> cattr;
  w_allow : list act -> str -> str -> str -> bool;   (* asCheckPut(): channel, host, name *)
  w_disp : list act -> nat -> bool;                  (* precord->disp *)
  w_pact : list act -> nat -> bool;
  w_scan : list act -> nat -> bool;                  (* precord->scan is Passive *)
  w_meta : list act -> str -> option meta;           (* None: an error status *)
  w_props : list act -> str -> option props;
  w_value : list act -> str -> option raw;
  w_put : list act -> str -> wdata -> bool;          (* false: an error status *)
  w_process : list act -> nat -> bool;
  w_alarm_name : Z -> str                            (* epicsAlarmConditionStrings *)
}.

(** An operation runs on what was called so far and what was assigned so far. *)
Definition assignment := (list str * src)%type.
Record ost := { s_acts : list act; s_val : list assignment }.
(** why an operation throws: "Modifications not allowed", "Field Disabled", "Links
    not supported", "Put not permitted", an error status of the database, a type
    or conversion error, "No fields changed" *)
Inductive fault := FNoMod | FDisabled | FLink | FDenied | FDb | FType | FNothing.
Inductive eres (A : Type) := EOk (a : A) | EErr (e : fault) | EUB.
Arguments EOk {A} a.
Arguments EErr {A} e.
Arguments EUB {A}.
Definition op (A : Type) := ost -> ost * eres A.
Definition ret {A} (a : A) : op A := fun s => (s, EOk a).
Definition throw {A} (e : fault) : op A := fun s => (s, EErr e).
Definition undefined {A} : op A := fun s => (s, EUB).
Definition bind {A B} (x : op A) (k : A -> op B) : op B :=
  fun s => match x s with
           | (s', EOk a) => k a s'
           | (s', EErr e) => (s', EErr e)
           | (s', EUB) => (s', EUB)
           end.
Definition seq {A B} (x : op A) (y : op B) : op B := bind x (fun _ => y).
Definition emit (a : act) : op unit := fun s => ({| s_acts := s_acts s ++ [a]; s_val := s_val s |}, EOk tt).
Definition assign (p : list str) (v : src) : op unit :=
  fun s => ({| s_acts := s_acts s; s_val := s_val s ++ [(p, v)] |}, EOk tt).
(** a lock held while the body runs, however it ends *)
Definition with_lock {A} (rs : list nat) (body : op A) : op A :=
  fun s => let '(s', r) := body {| s_acts := s_acts s ++ [ALock rs]; s_val := s_val s |} in
           ({| s_acts := s_acts s' ++ [AUnlock rs]; s_val := s_val s' |}, r).
(** a call with an answer *)
Definition call {A} (a : act) (answer : list act -> option A) : op A :=
  fun s => ({| s_acts := s_acts s ++ [a]; s_val := s_val s |},
            match answer (s_acts s) with Some x => EOk x | None => EErr FDb end).
Definition ask {A} (f : list act -> A) : op A := fun s => (s, EOk (f (s_acts s))).
Fixpoint each {A} (f : A -> op unit) (l : list A) : op unit :=
  match l with [] => ret tt | x :: l' => seq (f x) (each f l') end.

(** ** Members *)

(** the member of a Struct at a path, and node[path] = v *)
Fixpoint sub_member (ms : list member) (p : list str) : option member :=
  match p with
  | [] => None
  | [n] => find (fun m => str_eqb (m_name m) n) ms
  | n :: p' => match find (fun m => str_eqb (m_name m) n) ms with
               | Some m => sub_member (m_children m) p'
               | None => None
               end
  end.
Definition has_member (ms : list member) (p : list str) : bool :=
  match sub_member ms p with Some _ => true | None => false end.
(** the members below the node of a field, by its mapping: ioc/groupconfigprocessor.cpp:867-954 *)
Definition node_members (t : mtype) (c : chan) : list member :=
  match t with
  | MScalar => match channel_def c with OK m => m_children m | _ => [] end
  | MMeta => meta_members
  | _ => []
  end.
(** assignment to a member; to one which is not there throws NoField *)
Definition set (ms : list member) (node p : list str) (v : src) : op unit :=
  if has_member ms p then assign (node ++ p) v else throw FType.
(** if(auto fld = node[p]) fld = v *)
Definition set_if (ms : list member) (node p : list str) (v : src) : op unit :=
  if has_member ms p then assign (node ++ p) v else ret tt.
Definition p2 (a b : string) : list str := [bs a; bs b].
Definition p3 (a b c : string) : list str := [bs a; bs b; bs c].

(** ** Reading, ioc/iocsource.cpp *)

(** IOCSource::initialize(), :39-65 *)
Definition form_choices : list str :=
  [bs "Default"; bs "String"; bs "Binary"; bs "Decimal"; bs "Hex"; bs "Exponential"; bs "Engineering"].
Definition initialize (w : world) (t : mtype) (c : chan) (ch : str) (node : list str) : op unit :=
  match t with
  | MScalar =>
      let ms := node_members t c in
      if has_member ms (p3 "display" "form" "choices") then
        seq (assign (node ++ p3 "display" "form" "choices") (PArr (AStr form_choices)))
            (match ca_form (w_attr w ch) with
             | Some i => set ms node (p3 "display" "form" "index") (PUInt (Z.of_nat i))
             | None => ret tt
             end)
      else ret tt
  | _ => ret tt
  end.
(** a number of a channel as it is given to Value::from() *)
Definition num_src (fp : fpu) (t : dbr) (z : Z) : src :=
  match t with
  | DChar | DShort | DLong | DInt64 => PInt z
  | DUChar | DUShort | DEnum | DULong | DUInt64 => PUInt z
  | DFloat => PReal (fp_widen fp z)
  | _ => PReal z
  end.
(** getScalarValue(), :68-116, into the member [dst] of type [code] *)
Definition get_scalar (fp : fpu) (w : world) (c : chan) (ch : str) (code : Z) (dst : list str) : op unit :=
  bind (call (ARead ch) (fun h => w_value w h ch)) (fun r =>
    if code =? tc_String then
      assign dst (PStr (c_str (firstn 39 (match r with RTexts (t :: _) => t | _ => [] end))))
    else if code =? tc_Struct then
      (if is_enum (ch_type c)
       then assign (dst ++ [bs "index"]) (PUInt (match r with RNums (z :: _) => z | _ => 0 end))
       else throw FType)
    else if is_string (ch_type c) || match ch_type c with DNoAccess => true | _ => false end then throw FType
    else assign dst (num_src fp (ch_type c) (match r with RNums (z :: _) => z | _ => 0 end))).
(** getArrayValue(), :119-156.  The buffer is full of zeros before the read.  The type of
    the member of an enum, or of a long string of no characters, is not that of an array
    (TypeCode::arrayType(), src/type.cpp:101-124). *)
Definition pad (n : nat) (l : list Z) : list Z := firstn n (l ++ repeat 0 n).
Definition get_array (w : world) (c : chan) (ch : str) (code : Z) (dst : list str) : op unit :=
  bind (call (ARead ch) (fun h => w_value w h ch)) (fun r =>
    if is_char (ch_type c) && (code =? tc_String) && (0 <? ch_elems c) then
      assign dst (PStr (c_str (map (u_cast 1) (firstn (Z.to_nat (ch_elems c) - 1)
                    (pad (Z.to_nat (ch_elems c)) (match r with RNums l => l | _ => [] end))))))
    else if is_string (ch_type c) then
      assign dst (PArr (AStr (map (fun t => c_str (firstn 40 t)) (match r with RTexts l => l | _ => [] end))))
    else if tc_isarray code then assign dst (PArr (APod code (match r with RNums l => l | _ => [] end)))
    else throw FType).
(** status of PVA from that of the database, :186-223; the numbers are those of
    alarm.h in EPICS Base *)
Definition alarm_status (s : Z) : Z :=
  if s =? 0 then 0
  else if existsb (Z.eqb s) [1; 2; 3; 5; 4; 6; 7; 8; 11] then 1
  else if existsb (Z.eqb s) [9; 10; 17] then 2
  else if existsb (Z.eqb s) [12; 13; 14; 15; 16] then 3
  else if existsb (Z.eqb s) [18; 19; 20; 21] then 4
  else 6.
(** :225-237 *)
Definition alarm_message (w : world) (m : meta) : str :=
  if is_nil (c_str (m_amsg m))
  then (if negb (m_status m =? 0) && (m_status m <? 22) then w_alarm_name w (m_status m) else [])
  else c_str (m_amsg m).
(** getTimeAlarm(), :160-251.  POSIX_TIME_AT_EPICS_EPOCH is 631152000u; both operands
    are 32 bits. *)
Definition get_time_alarm (w : world) (ms : list member) (ch : str) (mask : Z) (alarm : bool) (node : list str) : op unit :=
  bind (call (ARead ch) (fun h => w_meta w h ch)) (fun m =>
    seq (if alarm
         then seq (set ms node (p2 "alarm" "status") (PUInt (alarm_status (m_status m))))
             (seq (set ms node (p2 "alarm" "severity") (PUInt (m_severity m)))
                  (set ms node (p2 "alarm" "message") (PStr (alarm_message w m))))
         else ret tt)
   (seq (set ms node (p2 "timeStamp" "secondsPastEpoch") (PUInt (u_cast 4 (m_sec m + 631152000))))
   (seq (set ms node (p2 "timeStamp" "nanoseconds") (PUInt (Z.land (m_nsec m) (Z.lxor mask 4294967295))))
        (set ms node (p2 "timeStamp" "userTag") (PUInt (if mask =? 0 then m_utag m else Z.land (m_nsec m) mask)))))).
(** getProperties(), :254-310 *)
Definition get_properties (w : world) (ms : list member) (ch : str) (node : list str) : op unit :=
  let opt {A} (o : option A) (k : A -> op unit) := match o with Some x => k x | None => ret tt end in
  bind (call (ARead ch) (fun h => w_props w h ch)) (fun p =>
    seq (opt (pr_units p) (fun u => set_if ms node (p2 "display" "units") (PStr u)))
   (seq (opt (pr_enum p) (fun l => set_if ms node (p2 "value" "choices") (PArr (AStr l))))
   (seq (if has_member ms (p2 "display" "limitLow") then
           seq (opt (pr_gr p) (fun x =>
                  seq (set ms node (p2 "display" "limitLow") (PReal (fst x)))
                 (seq (set ms node (p2 "display" "limitHigh") (PReal (snd x)))
                      (opt (pr_prec p) (fun z => set ms node (p2 "display" "precision") (PInt z))))))
          (seq (opt (pr_ctrl p) (fun x =>
                  seq (set ms node (p2 "control" "limitLow") (PReal (fst x)))
                      (set ms node (p2 "control" "limitHigh") (PReal (snd x)))))
               (opt (pr_al p) (fun x =>
                  seq (set ms node (p2 "valueAlarm" "lowAlarmLimit") (PReal (fst (fst x))))
                 (seq (set ms node (p2 "valueAlarm" "lowWarningLimit") (PReal (snd (fst x))))
                 (seq (set ms node (p2 "valueAlarm" "highWarningLimit") (PReal (fst (snd x))))
                      (set ms node (p2 "valueAlarm" "highAlarmLimit") (PReal (snd (snd x)))))))))
         else ret tt)
        (set_if ms node (p2 "display" "description") (PStr (pr_desc p)))))).
(** the UpdateType bits: value, alarm, property *)
Record change := { c_value : bool; c_alarm : bool; c_property : bool }.
Definition everything : change := {| c_value := true; c_alarm := true; c_property := true |}.
(** type of the member read into *)
Definition value_code (t : mtype) (any : option Z) (c : chan) : Z :=
  match t with
  | MAny => match any with Some z => z | None => tc_Null end
  | MScalar => if is_enum (ch_type c) then tc_Struct else match channel_type true c with Some z => z | None => tc_Null end
  | _ => match channel_type true c with Some z => z | None => tc_Null end
  end.
(** IOCSource::get(), :312-352.  Reading through a null channel is undefined
    behaviour.  A Const without value: Value::assign() throws. *)
Definition ioc_get (fp : fpu) (w : world) (t : mtype) (cval : option src) (any : option Z) (mask : Z) (x : change)
           (ch : str) (oc : option chan) (node : list str) : op unit :=
  match t with
  | MProc | MStructure => ret tt
  | MConst => match cval with Some v => assign node v | None => throw FType end
  | _ =>
      match oc with
      | None => undefined
      | Some c =>
          let ms := node_members t c in
          seq (match t with MScalar => if c_property x then get_properties w ms ch node else ret tt | _ => ret tt end)
         (seq (match t with
               | MScalar | MMeta => if c_value x || c_alarm x then get_time_alarm w ms ch mask (c_alarm x) node else ret tt
               | _ => ret tt
               end)
              (match t with
               | MMeta => ret tt
               | _ =>
                   if c_value x then
                     let dst := match t with MScalar => node ++ [bs "value"] | _ => node end in
                     let code := value_code t any c in
                     if ch_elems c =? 1 then get_scalar fp w c ch code dst else get_array w c ch code dst
                   else ret tt
               end))
      end
  end.

(** ** Writing, ioc/iocsource.cpp *)

(** What a client sent: the members which are marked, and the content of members;
    [SNone]: there is no such member *)
Inductive sdata := SLeaf (p : src) | SStruct | SNone.
Record sent := { sn_marked : list (list str); sn_at : list str -> sdata }.
Fixpoint is_prefix (a b : list str) : bool :=
  match a, b with
  | [], _ => true
  | x :: a', y :: b' => str_eqb x y && is_prefix a' b'
  | _ :: _, [] => false
  end.
(** Value::isMarked(), src/data.cpp:213-246: (true, false) of a member, the root being
    [], and (true, true) of the whole Value *)
Definition is_sent (v : sent) (p : list str) : bool := existsb (fun m => is_prefix m p) (sn_marked v).
Definition any_sent (v : sent) : bool := negb (is_nil (sn_marked v)).
(** value.as<T>() *)
Definition as_number (fp : fpu) (p : src) (wt : want) : op Z :=
  match out_leaf fp p wt with
  | CV (PReal z) | CV (PInt z) | CV (PUInt z) => ret z
  | CV _ => throw FType
  | CFail RUB => undefined
  | CFail _ => throw FType
  end.
(** doDbPut(), :458-470 *)
Definition db_put (w : world) (ch : str) (d : wdata) : op unit :=
  call (AWrite ch d) (fun h => if w_put w h ch d then Some tt else None).
(** putScalar(), :473-517; an enum is converted as int16_t *)
Definition put_scalar (fp : fpu) (w : world) (c : chan) (ch : str) (v : sdata) : op unit :=
  match v with
  | SNone | SStruct => throw FType
  | SLeaf p =>
      let t := ch_type c in
      let int n := bind (as_number fp p WInt) (fun z => db_put w ch (WNum t (s_cast n z))) in
      let uint n := bind (as_number fp p WUInt) (fun z => db_put w ch (WNum t (u_cast n z))) in
      match t with
      | DChar => int 1%nat
      | DShort | DEnum => int 2%nat
      | DLong => int 4%nat
      | DInt64 => int 8%nat
      | DUChar => uint 1%nat
      | DUShort => uint 2%nat
      | DULong => uint 4%nat
      | DUInt64 => uint 8%nat
      | DFloat => bind (as_number fp p WReal) (fun z => db_put w ch (WNum t (fp_narrow fp z)))
      | DDouble => bind (as_number fp p WReal) (fun z => db_put w ch (WNum t z))
      | DString => match to_text fp p with
                   | CV s => db_put w ch (WText (firstn 39 (c_str s)))
                   | CFail _ => throw FType
                   end
      | DNoAccess => throw FType
      end
  end.
(** putLongString(), :520-526 *)
Definition put_long_string (fp : fpu) (w : world) (ch : str) (p : src) : op unit :=
  match to_text fp p with CV s => db_put w ch (WChars (s ++ [0])) | CFail _ => throw FType end.
(** putStringArray(), :529-542.  Simplification: an array which is not of strings is
    not converted but refused *)
Definition put_string_array (w : world) (ch : str) (v : sdata) : op unit :=
  match v with
  | SLeaf (PArr (AStr l)) => db_put w ch (WTexts (map (firstn 39) l))
  | SLeaf (PArr ANull) => db_put w ch (WTexts [])
  | _ => throw FType
  end.
(** putArray(), :545-575 *)
Definition put_array (w : world) (ch : str) (v : sdata) : op unit :=
  match v with
  | SLeaf (PArr ANull) => ret tt
  | SLeaf (PArr (AStr l)) => put_string_array w ch v
  | SLeaf (PArr (APod t l)) => if t =? tc_BoolA then throw FType else db_put w ch (WPod t l)
  | _ => throw FType
  end.
Definition is_text (v : sdata) : bool := match v with SLeaf (PStr _) => true | _ => false end.
(** IOCSource::put(), :583-617 *)
Definition ioc_put (fp : fpu) (w : world) (t : mtype) (cval : option src) (c : chan) (ch : str) (v : sent) (node : list str) : op unit :=
  match t with
  | MMeta | MProc | MStructure => ret tt
  | _ =>
      let x := match t with
               | MAny => sn_at v (node ++ [bs "->"])
               | MScalar => match sn_at v (node ++ [bs "value"]) with
                            | SStruct => sn_at v (node ++ p2 "value" "index")
                            | d => d
                            end
               | MConst => match cval with Some p => SLeaf p | None => SNone end
               | _ => sn_at v node
               end in
      if ch_elems c =? 1 then put_scalar fp w c ch x
      else if is_char (ch_type c) && is_text x then
        match x with SLeaf p => put_long_string fp w ch p | _ => throw FType end
      else if is_string (ch_type c) then put_string_array w ch x
      else put_array w ch x
  end.
(** doPreProcessing(), :363-375.  Simplification: what asTrapWriteWithData() reports to
    listeners is left out. *)
Definition pre_processing (w : world) (c : chan) (ch : str) : op unit :=
  if ca_attribute (w_attr w ch) then throw FNoMod
  else bind (ask (fun h => w_disp w h (ch_record c))) (fun d =>
         if d && negb (ca_disp (w_attr w ch)) then throw FDisabled else ret tt).
(** SecurityClient: one access security client per credential, of the channel given to
    update(); canWrite(), ioc/securityclient.cpp:19-46 *)
Definition sclient := option (str * creds).
Definition can_write (w : world) (h : list act) (s : sclient) : bool :=
  match s with
  | None => false
  | Some (ch, cr) => existsb (fun n => w_allow w h ch (cr_host cr) n) (cr_names cr)
  end.
(** doFieldPreProcessing(), :382-387 *)
Definition field_pre_processing (w : world) (s : sclient) : op unit :=
  bind (ask (fun h => can_write w h s)) (fun ok => if ok then ret tt else throw FDenied).
(** TriState, and setForceProcessingFlag(), :429-455: from record._options.process *)
Inductive tri := Unset | On | Off.
Definition force_flag (o : sdata) : tri :=
  match o with
  | SLeaf (PStr s) => if str_eqb s (bs "true") then On else if str_eqb s (bs "false") then Off else Unset
  | SLeaf (PBool b) => if b then On else Off
  | _ => Unset
  end.
(** doPostProcessing(), :397-421; no channel of a Value has a type at or beyond
    DBR_PUT_ACKT *)
Definition post_processing (w : world) (c : chan) (ch : str) (force : tri) : op unit :=
  bind (ask (fun h => w_scan w h (ch_record c))) (fun scan =>
    if ca_proc (w_attr w ch) || match force with On => true | _ => false end
       || ca_passive (w_attr w ch) && scan && match force with Unset => true | _ => false end
    then bind (ask (fun h => w_pact w h (ch_record c))) (fun pact =>
           if pact then emit (AReprocess (ch_record c))
           else call (AProcess (ch_record c)) (fun h => if w_process w h (ch_record c) then Some tt else None))
    else ret tt).

(** ** Groups, ioc/groupsource.cpp *)

(** Field::findIn(), ioc/field.cpp:55-82, as the path of the member *)
Definition node_of (f : cfield) : list str := if name_empty (cf_path f) then [] else map print_comp (cf_path f).
Definition chan_name (f : cfield) : str := fc_channel (cf_conf f).
Definition ftype (f : cfield) : mtype := fc_type (cf_conf f).
(** initialiseDbLocker(), ioc/groupconfigprocessor.cpp:1165-1178, and the lock of the
    triggered fields, :537-564 *)
Definition records_of (l : list cfield) : list nat :=
  flat_map (fun f => match cf_chan f with Some c => [ch_record c] | None => [] end) l.
Definition triggered (fields : list cfield) (f : cfield) : list cfield :=
  flat_map (fun i => match nth_error fields i with Some g => [g] | None => [] end) (cf_trig f).
Definition mask_of (w : world) (f : cfield) : Z :=
  match cf_chan f with Some _ => ca_mask (w_attr w (chan_name f)) | None => 0 end.
(** the option record._options.atomic, a bool if it is there and can be converted *)
Definition atomic_of (g : group) (o : option bool) : bool := match o with Some b => b | None => g_atomic g end.
(** getGroupField(), :408-425 *)
Definition read_field (fp : fpu) (w : world) (x : change) (f : cfield) : op unit :=
  ioc_get fp w (ftype f) (fc_const (cf_conf f)) (cf_any f) (mask_of w f) x (chan_name f) (cf_chan f) (node_of f).
Definition get_field (fp : fpu) (w : world) (f : cfield) : op unit :=
  seq (match cf_chan f with Some c => initialize w (ftype f) c (chan_name f) (node_of f) | None => ret tt end)
      (read_field fp w everything f).
(** GroupSource::get(), :433-484.  For a Proc field in a non-atomic GET findIn() gives an
    empty Value; if it does not (the name is part of another), the record is locked for
    nothing, which is left out. *)
Definition get_group (fp : fpu) (w : world) (g : group) (opt : option bool) : op unit :=
  let atomic := atomic_of g opt in
  seq (assign (p3 "record" "_options" "atomic") (PBool atomic))
      (if atomic
       then with_lock (records_of (g_fields g))
              (each (fun f => match ftype f with MProc | MStructure => ret tt | _ => get_field fp w f end) (g_fields g))
       else each (fun f => match cf_chan f with
                           | None => ret tt
                           | Some c => match ftype f with
                                       | MProc => ret tt
                                       | _ => with_lock [ch_record c] (get_field fp w f)
                                       end
                           end) (g_fields g)).
(** GroupSecurityCache, filled at the first PUT of an operation, :168-184 *)
Definition group_clients (g : group) (cr : creds) : list sclient :=
  map (fun f => match cf_chan f with Some _ => Some (chan_name f, cr) | None => None end) (g_fields g).
(** putGroupField(), :498-517; whether it did something *)
Definition put_field (fp : fpu) (w : world) (v : sent) (f : cfield) (s : sclient) (force : tri) : op bool :=
  let marked := is_sent v (node_of f) && match cf_chan f with Some _ => true | None => false end
                && negb (fc_order (cf_conf f) =? no_order) in
  match cf_chan f with
  | Some c =>
      seq (if marked
           then seq (field_pre_processing w s) (ioc_put fp w (ftype f) (fc_const (cf_conf f)) c (chan_name f) v (node_of f))
           else ret tt)
          (if marked || match ftype f with MProc => true | _ => false end
           then seq (post_processing w c (chan_name f) force) (ret true)
           else ret false)
  | None => match ftype f with MProc => undefined | _ => ret false end
  end.
(** the loops over the fields; [i] is fieldIndex, which the second does not count for a
    field without channel (:582-591) *)
Fixpoint put_all (fp : fpu) (w : world) (v : sent) (clients : list sclient) (force : tri) (l : list cfield) (i : nat) (did : bool) : op bool :=
  match l with
  | [] => ret did
  | f :: l' => bind (put_field fp w v f (nth i clients None) force)
                    (fun b => put_all fp w v clients force l' (S i) (did || b))
  end.
Fixpoint put_each (fp : fpu) (w : world) (v : sent) (clients : list sclient) (force : tri) (l : list cfield) (i : nat) (did : bool) : op bool :=
  match l with
  | [] => ret did
  | f :: l' =>
      match cf_chan f with
      | None => put_each fp w v clients force l' i did
      | Some c => bind (with_lock [ch_record c] (put_field fp w v f (nth i clients None) force))
                       (fun b => put_each fp w v clients force l' (S i) (did || b))
      end
  end.
(** GroupSource::putGroup(), :527-612; an exception is reported to the client *)
Definition put_group (fp : fpu) (w : world) (g : group) (opt : option bool) (cr : creds) (force : tri) (v : sent) : op unit :=
  let clients := group_clients g cr in
  seq (each (fun f => match cf_chan f with
                      | None => ret tt
                      | Some c => seq (pre_processing w c (chan_name f))
                                      (if ca_final_link (w_attr w (chan_name f)) then throw FLink else ret tt)
                      end) (g_fields g))
      (bind (if atomic_of g opt
             then with_lock (records_of (g_fields g)) (put_all fp w v clients force (g_fields g) 0 false)
             else put_each fp w v clients force (g_fields g) 0 false)
            (fun did => if negb did && any_sent v then throw FNothing else ret tt)).

(** ** Monitors of groups *)

(** GroupSourceSubscriptionCtx with its FieldSubscriptionCtx: eventsPrimed, hadValueEvent
    and hadPropertyEvent by field, and what is marked in currentValue *)
Record gsub := { gs_primed : bool; gs_value : list bool; gs_prop : list bool; gs_cur : list assignment }.
(** onSubscribe(), ioc/groupsource.cpp:350-406, and FieldSubscriptionCtx(),
    ioc/fieldsubscriptionctx.h:48-55.  A channel may be subscribed to; failure to is left out. *)
Definition subscribe_field (w : world) (f : cfield) : op unit :=
  match ftype f with
  | MConst => match fc_const (cf_conf f) with Some v => assign (node_of f) v | None => throw FType end
  | _ => match cf_chan f with
         | None => ret tt
         | Some c => initialize w (ftype f) c (chan_name f) (node_of f)
         end
  end.
Definition no_chan (f : cfield) : bool := match cf_chan f with None => true | Some _ => false end.
Definition has_props (f : cfield) : bool := match ftype f with MMeta | MScalar => true | _ => false end.
(** whether there is a subscription to the value, :368-391 *)
Definition sub_value (f : cfield) : bool :=
  match ftype f with MConst => false | _ => negb (no_chan f) end.
Definition subscribe (w : world) (g : group) (queue : Z) : eres gsub :=
  let '(s, r) := seq (assign (p3 "record" "_options" "queueSize") (PUInt queue))
                (seq (assign (p3 "record" "_options" "atomic") (PBool true))
                     (each (subscribe_field w) (g_fields g)))
                   {| s_acts := []; s_val := [] |} in
  match r with
  | EOk _ => EOk {| gs_primed := false;
                    gs_value := map no_chan (g_fields g);
                    gs_prop := map (fun f => no_chan f || negb (match ftype f with MConst => true | _ => has_props f end)) (g_fields g);
                    gs_cur := s_val s |}
  | EErr e => EErr e
  | EUB => EUB
  end.
(** subscriptionPost(), :206-237: what is posted, if anything *)
Definition sub_post (s : gsub) : gsub * option (list assignment) :=
  if gs_primed s then
    if is_nil (gs_cur s) then (s, None)
    else ({| gs_primed := true; gs_value := gs_value s; gs_prop := gs_prop s; gs_cur := [] |}, Some (gs_cur s))
  else if forallb (fun b => b) (gs_value s) && forallb (fun b => b) (gs_prop s)
  then ({| gs_primed := true; gs_value := gs_value s; gs_prop := gs_prop s; gs_cur := [] |}, Some (gs_cur s))
  else (s, None).
Definition set_nth (i : nat) (l : list bool) : list bool := firstn i l ++ match skipn i l with _ :: r => true :: r | [] => [] end.
(** an event of field [i]: of its value with the mask of the db_field_log, of its
    properties, or the start of the subscription *)
Inductive sevent := SValue (i : nat) (x : change) | SProps (i : nat) | SStart.
(** subscriptionValueCallback(), :262-308.  The mask is used for a triggered field whose
    channel is that of the event, else value and alarm are read. *)
Definition value_alarm : change := {| c_value := true; c_alarm := true; c_property := false |}.
Definition props_only : change := {| c_value := false; c_alarm := false; c_property := true |}.
Definition read_triggered (fp : fpu) (w : world) (fields : list cfield) (i : nat) (f : cfield) (x : change) : op unit :=
  with_lock (records_of (triggered fields f))
    (each (fun j => match nth_error fields j with
                    | Some g => read_field fp w (if (j =? i)%nat then x else value_alarm) g
                    | None => undefined
                    end) (cf_trig f)).
(** one event; there are none of what is not subscribed to.  [h]: the calls so far.  An
    exception is logged; what was assigned stays and nothing is posted.
    subscriptionPropertiesCallback(), :310-340. *)
Definition sub_step (fp : fpu) (w : world) (g : group) (e : sevent) (h : list act) (s : gsub)
  : list act * eres (gsub * option (list assignment)) :=
  let finish (had_v had_p : list bool) (body : op unit) :=
    let '(o, r) := body {| s_acts := h; s_val := gs_cur s |} in
    let s' := {| gs_primed := gs_primed s; gs_value := had_v; gs_prop := had_p; gs_cur := s_val o |} in
    (s_acts o, match r with
               | EOk _ => EOk (sub_post s')
               | EErr _ => EOk (s', None)
               | EUB => EUB
               end) in
  match e with
  | SStart => (h, EOk (sub_post s))
  | SValue i x =>
      match nth_error (g_fields g) i with
      | None => (h, EOk (s, None))
      | Some f => if sub_value f
                  then finish (set_nth i (gs_value s)) (gs_prop s) (read_triggered fp w (g_fields g) i f x)
                  else (h, EOk (s, None))
      end
  | SProps i =>
      match nth_error (g_fields g) i with
      | None => (h, EOk (s, None))
      | Some f => match cf_chan f with
                  | None => (h, EOk (s, None))
                  | Some c => if has_props f
                              then finish (gs_value s) (set_nth i (gs_prop s)) (with_lock [ch_record c] (read_field fp w props_only f))
                              else (h, EOk (s, None))
                  end
      end
  end.
(** a history: the updates posted *)
Fixpoint sub_run (fp : fpu) (w : world) (g : group) (l : list sevent) (h : list act) (s : gsub)
  : list act * eres (gsub * list (list assignment)) :=
  match l with
  | [] => (h, EOk (s, []))
  | e :: l' =>
      match sub_step fp w g e h s with
      | (h', EOk (s', o)) =>
          match sub_run fp w g l' h' s' with
          | (h'', EOk (s'', us)) => (h'', EOk (s'', match o with Some u => u :: us | None => us end))
          | r => r
          end
      | (h', EErr e) => (h', EErr e)
      | (h', EUB) => (h', EUB)
      end
  end.

(** ** Single PVs, ioc/singlesource.cpp *)

(** singleGet(), :265-284; SingleInfo reads Q:time:tag of the record
    (ioc/singlesrcsubscriptionctx.h) *)
Definition single_get (fp : fpu) (w : world) (c : chan) (ch : str) : op unit :=
  seq (initialize w MScalar c ch [])
      (with_lock [ch_record c] (ioc_get fp w MScalar None None (ca_mask (w_attr w ch)) everything ch (Some c) [])).
(** onOp(), :313-369.  [block] is record._options.block.  dbProcessNotify() is outside: it
    is the call [notify write] with the request and the data to put, made when the record
    is not active; it gives whether it ended with notifyOK.  putCallback() writes what
    IOCSource::put() would. *)
Inductive sreq := PutProcess | ProcessOnly.
Record single_cfg := { sc_block : bool; sc_force : tri }.
Definition single_wait (o : single_cfg) : bool := sc_block o && match sc_force o with Unset => true | _ => false end.
Definition single_request (v : sent) : sreq :=
  if existsb (fun m => is_prefix m [bs "value"] || is_prefix [bs "value"] m) (sn_marked v) then PutProcess else ProcessOnly.
Definition single_put (fp : fpu) (w : world) (c : chan) (ch : str) (cr : creds) (o : single_cfg)
           (notify : op unit -> op unit) (v : sent) : op unit :=
  seq (pre_processing w c ch)
 (seq (field_pre_processing w (Some (ch, cr)))
      (if single_wait o
       then notify (match single_request v with
                    | PutProcess => ioc_put fp w MScalar None c ch v []
                    | ProcessOnly => ret tt
                    end)
       else if ca_link (w_attr w ch)
       then ioc_put fp w MScalar None c ch v []
       else with_lock [ch_record c]
              (seq (ioc_put fp w MScalar None c ch v []) (post_processing w c ch (sc_force o))))).
(** subscriptionCallback() etc., :48-93: hadValueEvent, hadPropertyEvent, what is marked.
    The mapping used is MappingInfo(): Scalar without a mask (:59). *)
Record ssub := { ss_value : bool; ss_prop : bool; ss_cur : list assignment }.
Inductive s1event := S1Value (x : change) | S1Props.
Definition single_subscribe (w : world) (c : chan) (ch : str) : eres ssub :=
  let '(s, r) := initialize w MScalar c ch [] {| s_acts := []; s_val := [] |} in
  match r with
  | EOk _ => EOk {| ss_value := false; ss_prop := false; ss_cur := s_val s |}
  | EErr e => EErr e
  | EUB => EUB
  end.
Definition single_step (fp : fpu) (w : world) (c : chan) (ch : str) (e : s1event) (h : list act) (s : ssub)
  : list act * eres (ssub * option (list assignment)) :=
  let '(hv, hp, x) := match e with
                      | S1Value x => (true, ss_prop s, x)
                      | S1Props => (ss_value s, true, props_only)
                      end in
  let '(o, r) := with_lock [ch_record c] (ioc_get fp w MScalar None None 0 x ch (Some c) []) {| s_acts := h; s_val := ss_cur s |} in
  (s_acts o, match r with
             | EOk _ => if hv && hp
                        then EOk ({| ss_value := hv; ss_prop := hp; ss_cur := [] |}, Some (s_val o))
                        else EOk ({| ss_value := hv; ss_prop := hp; ss_cur := s_val o |}, None)
             | EErr _ => EOk ({| ss_value := hv; ss_prop := hp; ss_cur := s_val o |}, None)
             | EUB => EUB
             end).
(** a history of events: the updates posted *)
Fixpoint single_run (fp : fpu) (w : world) (c : chan) (ch : str) (l : list s1event) (h : list act) (s : ssub)
  : list act * eres (ssub * list (list assignment)) :=
  match l with
  | [] => (h, EOk (s, []))
  | e :: l' =>
      match single_step fp w c ch e h s with
      | (h', EOk (s', o)) =>
          match single_run fp w c ch l' h' s' with
          | (h'', EOk (s'', us)) => (h'', EOk (s'', match o with Some u => u :: us | None => us end))
          | r => r
          end
      | (h', EErr e) => (h', EErr e)
      | (h', EUB) => (h', EUB)
      end
  end.
