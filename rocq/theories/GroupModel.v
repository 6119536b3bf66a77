(** Model of how an IOC turns group definitions into groups (QSRV): field names
    (ioc/fieldname.cpp), the JSON callbacks (ioc/groupconfigprocessor.cpp:610-835,
    ioc/groupprocessorcontext.cpp), validation, definition, triggers and creation
    of groups (ioc/groupconfigprocessor.cpp), fields (ioc/field.cpp) and the types
    of database channels (ioc/typeutils.cpp, ioc/iocsource.cpp).

    Simplifications.  The JSON parser itself (yajl) is not modelled: a text is the
    list of callbacks it causes.  The database is a function from channel names to
    what is used of a dbChannel.  Memory allocation and dbLockerAlloc() do not fail;
    messages to stderr and the log are left out.

    No proofs in this file. *)
From Coq Require Import String ZArith List Bool.
From Verif Require Import Base WireModel TypeModel TextModel ValueModel MarkModel CopyModel NtModel.
Import ListNotations.
Local Open Scope Z_scope.

(** ** Field names, ioc/fieldname.cpp, ioc/fieldnamecomponent.h *)

(** FieldNameComponent, ioc/fieldnamecomponent.h:20-60; index is uint32_t, -1 if
    there is none *)
Record comp := { p_name : str; p_index : Z }.
Definition no_index : Z := 4294967295.
Definition is_indexed (c : comp) : bool := negb (p_index c =? no_index).

(** the lines std::getline(stream, line, c) gives; after a final [c] there is no
    further line.  Used at ioc/fieldname.cpp:32 and ioc/groupconfigprocessor.cpp:305 *)
Fixpoint getlines (c : Z) (s : str) : list str :=
  match s with
  | [] => []
  | x :: s' =>
      if x =? c then [] :: getlines c s'
      else match getlines c s' with
           | [] => [[x]]
           | l :: ls => (x :: l) :: ls
           end
  end.
(** find_last_of(c): what is before and after *)
Fixpoint cut_last (c : Z) (s : str) : option (str * str) :=
  match s with
  | [] => None
  | x :: s' =>
      match cut_last c s' with
      | Some (a, b) => Some (x :: a, b)
      | None => if x =? c then Some ([], s') else None
      end
  end.
(** C strtol(, , 10) where long has 64 bits: the number and where it stopped *)
Definition is_digit (x : Z) : bool := (48 <=? x) && (x <=? 57).
Fixpoint dec_digits (acc : Z) (s : str) : Z * str :=
  match s with
  | x :: s' => if is_digit x then dec_digits (acc * 10 + (x - 48)) s' else (acc, s)
  | [] => (acc, [])
  end.
Definition long_clamp (z : Z) : Z := Z.max (- 2 ^ 63) (Z.min (2 ^ 63 - 1) z).
Definition strtol10 (s : str) : Z * str :=
  let t := skip_space s in
  let neg := match t with x :: _ => x =? 45 | [] => false end in
  let u := match t with x :: t' => if (x =? 45) || (x =? 43) then t' else t | [] => t end in
  match u with
  | x :: _ => if is_digit x
              then let '(v, r) := dec_digits 0 u in (long_clamp (if neg then - v else v), r)
              else (0, s)
  | [] => (0, s)
  end.
(** one component, ioc/fieldname.cpp:33-58; None = throws *)
Definition parse_part (part : str) : option comp :=
  if is_nil part then None
  else if last part 0 =? 93 then
    match cut_last 91 part with
    | None => None
    | Some (name, sub) =>
        let '(v, rest) := strtol10 sub in
        if hd 0 rest =? 93 then Some {| p_name := name; p_index := u_cast 4 v |} else None
    end
  else Some {| p_name := part; p_index := no_index |}.
Fixpoint parse_parts (l : list str) : option (list comp) :=
  match l with
  | [] => Some []
  | x :: l' => match parse_part x, parse_parts l' with
               | Some c, Some cs => Some (c :: cs)
               | _, _ => None
               end
  end.
(** FieldName::FieldName(), ioc/fieldname.cpp:26-67 *)
Definition parse_name (s : str) : option (list comp) :=
  if is_nil s then Some []
  else match parse_parts (getlines 46 s) with
       | Some [] => None
       | r => r
       end.
(** operator<<, ioc/fieldname.cpp:87-107 *)
Definition print_comp (c : comp) : str :=
  p_name c ++ (if is_indexed c then 91 :: print_int (p_index c) ++ [93] else []).
Fixpoint print_comps (l : list comp) : str :=
  match l with
  | [] => []
  | [c] => print_comp c
  | c :: l' => print_comp c ++ 46 :: print_comps l'
  end.
Definition print_name (l : list comp) : str := if is_nil l then bs "/" else print_comps l.
(** FieldName::empty(), ioc/fieldname.h:60-62 *)
Definition name_empty (l : list comp) : bool :=
  match l with
  | [] => true
  | [c] => is_nil (p_name c)
  | _ => false
  end.
(** FieldName::leafFieldName(), ioc/fieldname.h:90-92, of a name with components *)
Definition no_comp : comp := {| p_name := []; p_index := no_index |}.
Definition leaf_comp (l : list comp) : comp := last l no_comp.

(** ** Configuration, ioc/fieldconfig.h, ioc/groupconfig.h *)

(** MappingInfo::type_t *)
Inductive mtype := MScalar | MPlain | MAny | MMeta | MProc | MStructure | MConst.
(** FieldConfig with MappingInfo; nsecMask comes from the record and is not part of
    the configuration.  [fc_const] None: the Value is empty *)
Record fconf := {
  fc_channel : str; fc_trigger : str; fc_id : str;
  fc_type : mtype; fc_order : Z; fc_const : option src }.
(** putOrder of a mapping without +putorder: the smallest int64_t *)
Definition no_order : Z := - 2 ^ 63.
Definition fconf0 : fconf :=
  {| fc_channel := []; fc_trigger := []; fc_id := []; fc_type := MScalar; fc_order := no_order; fc_const := None |}.
(** GroupConfig; [gc_fields] is a std::map, sorted by name *)
Record gconf := { gc_atomic : bool; gc_atomic_set : bool; gc_id : str; gc_fields : list (str * fconf) }.
Definition gconf0 : gconf := {| gc_atomic := true; gc_atomic_set := false; gc_id := []; gc_fields := [] |}.
(** GroupConfigProcessor::groupConfigMap *)
Definition configs := list (str * gconf).
(** std::map::operator[] for reading: default if absent *)
Definition map_at {V} (d : V) (k : str) (m : list (str * V)) : V :=
  match map_get k m with Some v => v | None => d end.

(** ** JSON callbacks *)

(** GroupProcessorContext, ioc/groupprocessorcontext.h *)
Record jctx := { j_prefix : str; j_group : str; j_field : str; j_key : str; j_depth : nat }.
(** callbacks: '{', '}', key, and a value; null is an empty Value.  Brackets of
    arrays cause no callback (ioc/groupconfigprocessor.cpp:788-789). *)
Inductive jevent := EStart | EEnd | EKey (k : str) | EVal (v : option src).
(** a result, an exception, undefined behaviour, or a failed assert *)
Inductive jres (A : Type) := JOk (a : A) | JThrow | JUB | JAbort.
Arguments JOk {A} a.
Arguments JThrow {A}.
Arguments JUB {A}.
Arguments JAbort {A}.

(** Value::as<T>() of an optional scalar value; an empty Value throws NoField *)
Definition as_text (fp : fpu) (v : option src) : jres str :=
  match v with
  | None => JThrow
  | Some p => match to_text fp p with CV s => JOk s | CFail RUB => JUB | CFail _ => JThrow end
  end.
Definition as_bool (fp : fpu) (v : option src) : jres bool :=
  match v with
  | None => JThrow
  | Some p => match out_bool fp p with CV b => JOk b | CFail RUB => JUB | CFail _ => JThrow end
  end.
Definition as_int (fp : fpu) (v : option src) : jres Z :=
  match v with
  | None => JThrow
  | Some p => match to_int fp p with CV z => JOk z | CFail RUB => JUB | CFail _ => JThrow end
  end.
Definition jmap {A B} (f : A -> B) (r : jres A) : jres B :=
  match r with JOk a => JOk (f a) | JThrow => JThrow | JUB => JUB | JAbort => JAbort end.

(** +type, ioc/groupprocessorcontext.cpp:44-64; an unknown name is ignored *)
Definition type_named (old : mtype) (s : str) : mtype :=
  if str_eqb s (bs "scalar") then MScalar
  else if str_eqb s (bs "plain") then MPlain
  else if str_eqb s (bs "any") then MAny
  else if str_eqb s (bs "meta") then MMeta
  else if str_eqb s (bs "proc") then MProc
  else if str_eqb s (bs "structure") then MStructure
  else if str_eqb s (bs "const") then MConst
  else old.
(** the options of a field, ioc/groupprocessorcontext.cpp:41-88 *)
Definition field_option (fp : fpu) (prefix key : str) (v : option src) (f : fconf) : jres fconf :=
  if str_eqb key (bs "+type") then
    jmap (fun s => {| fc_channel := fc_channel f; fc_trigger := fc_trigger f; fc_id := fc_id f;
                      fc_type := type_named (fc_type f) s; fc_order := fc_order f; fc_const := fc_const f |}) (as_text fp v)
  else if str_eqb key (bs "+channel") then
    jmap (fun s => {| fc_channel := prefix ++ s; fc_trigger := fc_trigger f; fc_id := fc_id f;
                      fc_type := fc_type f; fc_order := fc_order f; fc_const := fc_const f |}) (as_text fp v)
  else if str_eqb key (bs "+id") then
    jmap (fun s => {| fc_channel := fc_channel f; fc_trigger := fc_trigger f; fc_id := s;
                      fc_type := fc_type f; fc_order := fc_order f; fc_const := fc_const f |}) (as_text fp v)
  else if str_eqb key (bs "+trigger") then
    jmap (fun s => {| fc_channel := fc_channel f; fc_trigger := s; fc_id := fc_id f;
                      fc_type := fc_type f; fc_order := fc_order f; fc_const := fc_const f |}) (as_text fp v)
  else if str_eqb key (bs "+putorder") then
    jmap (fun z => {| fc_channel := fc_channel f; fc_trigger := fc_trigger f; fc_id := fc_id f; fc_type := fc_type f;
                      fc_order := if z =? no_order then z + 1 else z; fc_const := fc_const f |}) (as_int fp v)
  else if str_eqb key (bs "+const") then
    JOk {| fc_channel := fc_channel f; fc_trigger := fc_trigger f; fc_id := fc_id f;
           fc_type := fc_type f; fc_order := fc_order f; fc_const := v |}
  else JOk f.
(** the options of a group, ioc/groupprocessorcontext.cpp:27-39 *)
Definition group_option (fp : fpu) (key : str) (v : option src) (g : gconf) : jres gconf :=
  if str_eqb key (bs "+atomic") then
    jmap (fun b => {| gc_atomic := b; gc_atomic_set := true; gc_id := gc_id g; gc_fields := gc_fields g |}) (as_bool fp v)
  else if str_eqb key (bs "+id") then
    jmap (fun s => {| gc_atomic := gc_atomic g; gc_atomic_set := gc_atomic_set g; gc_id := s; gc_fields := gc_fields g |}) (as_text fp v)
  else JOk g.
(** How a callback ends: it gives yajl a number (zero would cancel the parse), meets
    undefined behaviour or fails an assert *)
Inductive cbres := CbReturns (n : Z) | CbUB | CbAbort.
(** yajlProcess(), ioc/groupconfigprocessor.cpp:1046-1058: 1 from the callback, -1 if
    it threw *)
Definition cb_of {A} (r : jres A) : cbres :=
  match r with JOk _ => CbReturns 1 | JThrow => CbReturns (-1) | JUB => CbUB | JAbort => CbAbort end.
(** GroupProcessorContext::assign(), ioc/groupprocessorcontext.cpp:23-91.  The group
    and the field are there afterwards even if the value cannot be used. *)
Definition j_assign (fp : fpu) (c : jctx) (v : option src) (cs : configs) : configs * jctx * cbres :=
  if ((j_depth c <? 2) || (3 <? j_depth c))%nat then (cs, c, cb_of (@JThrow unit))
  else
    let g := map_at gconf0 (j_group c) cs in
    if (j_depth c =? 2)%nat then
      let r := group_option fp (j_field c) v g in
      (map_set (j_group c) (match r with JOk g' => g' | _ => g end) cs,
       match r with
       | JOk _ => {| j_prefix := j_prefix c; j_group := j_group c; j_field := []; j_key := j_key c; j_depth := j_depth c |}
       | _ => c
       end, cb_of r)
    else
      let f := map_at fconf0 (j_field c) (gc_fields g) in
      let r := field_option fp (j_prefix c) (j_key c) v f in
      (map_set (j_group c)
         {| gc_atomic := gc_atomic g; gc_atomic_set := gc_atomic_set g; gc_id := gc_id g;
            gc_fields := map_set (j_field c) (match r with JOk f' => f' | _ => f end) (gc_fields g) |} cs,
       match r with
       | JOk _ => {| j_prefix := j_prefix c; j_group := j_group c; j_field := j_field c; j_key := []; j_depth := j_depth c |}
       | _ => c
       end, cb_of r).
(** the callbacks, ioc/groupconfigprocessor.cpp:619-769.  '{' counts before it throws;
    '}' throws before it counts. *)
Definition j_event (fp : fpu) (c : jctx) (e : jevent) (cs : configs) : configs * jctx * cbres :=
  let with_ g f k d := {| j_prefix := j_prefix c; j_group := g; j_field := f; j_key := k; j_depth := d |} in
  match e with
  | EKey k =>
      if is_nil k && negb (j_depth c =? 2)%nat then (cs, c, CbReturns (-1))
      else if (j_depth c =? 1)%nat then (cs, with_ k (j_field c) (j_key c) (j_depth c), CbReturns 1)
      else if (j_depth c =? 2)%nat then (cs, with_ (j_group c) k (j_key c) (j_depth c), CbReturns 1)
      else if (j_depth c =? 3)%nat then (cs, with_ (j_group c) (j_field c) k (j_depth c), CbReturns 1)
      else (cs, c, CbReturns (-1))
  | EVal v => j_assign fp c v cs
  | EStart =>
      (cs, with_ (j_group c) (j_field c) (j_key c) (S (j_depth c)), CbReturns (if (3 <? S (j_depth c))%nat then -1 else 1))
  | EEnd =>
      if negb (is_nil (j_key c)) then (cs, c, CbAbort)   (* assert at :753 *)
      else if (j_depth c =? 3)%nat then (cs, with_ (j_group c) (j_field c) [] 2%nat, CbReturns 1)
      else if (j_depth c =? 2)%nat then (cs, with_ (j_group c) [] (j_key c) 1%nat, CbReturns 1)
      else if (j_depth c =? 1)%nat then (cs, with_ [] (j_field c) (j_key c) 0%nat, CbReturns 1)
      else (cs, c, CbReturns (-1))
  end.
(** The callbacks of a text in turn.  By the contract of yajl a callback cancels the
    parse by giving zero.  [ok]: yajl finds no error in the text (one it finds comes
    after the callbacks given here), ioc/groupconfigprocessor.cpp:1068-1157. *)
Fixpoint j_events (fp : fpu) (c : jctx) (l : list jevent) (ok : bool) (cs : configs) : configs * jres unit :=
  match l with
  | [] => (cs, if ok then JOk tt else JThrow)
  | e :: l' =>
      let '(cs', c', r) := j_event fp c e cs in
      match r with
      | CbReturns n => if n =? 0 then (cs', JThrow) else j_events fp c' l' ok cs'
      | CbUB => (cs', JUB)
      | CbAbort => (cs', JAbort)
      end
  end.
(** a JSON text: the callbacks it causes and whether it is well formed *)
Definition jtext := (list jevent * bool)%type.
(** parseConfigString(), ioc/groupconfigprocessor.cpp:799-835; [record] is the name
    of the record for info(Q:group), None for a file *)
Definition parse_config (fp : fpu) (record : option str) (t : jtext) (cs : configs) : configs * jres unit :=
  j_events fp {| j_prefix := match record with Some r => r ++ [46] | None => [] end;
                 j_group := []; j_field := []; j_key := []; j_depth := 0 |} (fst t) (snd t) cs.
(** loadConfigFromDb(), ioc/groupconfigprocessor.cpp:48-70: an error in one record is
    reported and the next is read *)
Fixpoint load_records (fp : fpu) (l : list (str * jtext)) (cs : configs) : configs * jres unit :=
  match l with
  | [] => (cs, JOk tt)
  | (name, evs) :: l' =>
      match parse_config fp (Some name) evs cs with
      | (cs', JOk _) | (cs', JThrow) => load_records fp l' cs'
      | r => r
      end
  end.
(** loadConfigFiles(), ioc/groupconfigprocessor.cpp:77-126: an error ends it *)
Fixpoint load_files (fp : fpu) (l : list jtext) (cs : configs) : configs * jres unit :=
  match l with
  | [] => (cs, JOk tt)
  | evs :: l' =>
      match parse_config fp None evs cs with
      | (cs', JOk _) => load_files fp l' cs'
      | r => r
      end
  end.

(** ** Files given to dbLoadGroup(), ioc/groupsourcehooks.cpp *)

(** IOCGroupConfig::groupConfigFiles; macros are expanded before the parser sees the
    text *)
Definition files := list (str * str * jtext).
(** dbLoadGroup(), ioc/groupsourcehooks.cpp:97-163.  [open fname macros]: the content
    of the file, None if it cannot be opened (or the macros are bad).  Gives the list
    and whether an error is returned. *)
Definition load_group (open : str -> str -> option jtext) (jsonFilename macros : str) (gCF : files) : files * bool :=
  match jsonFilename with
  | [] => (gCF, true)
  | c :: rest =>
      let remove := c =? 45 in
      let fname := if remove then rest else jsonFilename in
      if str_eqb fname (bs "*") then ([], false)
      else
        let others := filter (fun x => negb (str_eqb (fst (fst x)) fname && str_eqb (snd (fst x)) macros)) gCF in
        if remove then (others, false)
        else match open fname macros with
             | None => (gCF, true)
             | Some evs => (others ++ [(fname, macros, evs)], false)
             end
  end.
(** dbLoadGroupCmd(), the iocsh command of that name, ioc/groupsourcehooks.cpp:43-46:
    it also lets a GroupConfigProcessor, which is then destroyed, read the files; that
    takes them from the list (ioc/groupconfigprocessor.cpp:79) *)
Definition load_group_cmd (fp : fpu) (open : str -> str -> option jtext) (jsonFilename macros : str) (gCF : files) : files * jres unit :=
  let '(gCF', _) := load_group open jsonFilename macros gCF in
  ([], snd (load_files fp (map snd gCF') [])).

(** ** Validation and definition *)

(** validateGroups(), ioc/groupconfigprocessor.cpp:128-163: None = the group is
    ignored *)
Definition needs_channel (t : mtype) : bool :=
  match t with MStructure | MConst => false | _ => true end.
Fixpoint validate_fields (l : list (str * fconf)) : option (list (str * fconf)) :=
  match l with
  | [] => Some []
  | (n, f) :: l' =>
      if needs_channel (fc_type f) && is_nil (fc_channel f) then None
      else
        let f' := if needs_channel (fc_type f) then f
                  else {| fc_channel := []; fc_trigger := fc_trigger f; fc_id := fc_id f;
                          fc_type := fc_type f; fc_order := fc_order f; fc_const := fc_const f |} in
        match validate_fields l' with Some r => Some ((n, f') :: r) | None => None end
  end.
Fixpoint validate_groups (cs : configs) : configs :=
  match cs with
  | [] => []
  | (n, g) :: cs' =>
      match validate_fields (gc_fields g) with
      | Some l => (n, {| gc_atomic := gc_atomic g; gc_atomic_set := gc_atomic_set g; gc_id := gc_id g; gc_fields := l |}) :: validate_groups cs'
      | None => validate_groups cs'
      end
  end.

(** FieldDefinition, ioc/fielddefinition.h; [fd_triggers] a std::set *)
Record fdef := { fd_name : str; fd_conf : fconf; fd_triggers : list str }.
(** std::set<std::string>::insert() *)
Fixpoint set_add (x : str) (l : list str) : list str :=
  match l with
  | [] => [x]
  | y :: l' => if str_ltb x y then x :: l else if str_eqb x y then l else y :: set_add x l'
  end.
(** the fields of defineFields(), ioc/groupconfigprocessor.cpp:215-244.  The names
    come from a std::map and the GroupDefinition is new, so none is there twice. *)
Definition define_fields (l : list (str * fconf)) : list fdef :=
  map (fun x => {| fd_name := fst x; fd_conf := snd x; fd_triggers := [] |})
      (filter (fun x => negb (is_nil (fst x)) || match fc_type (snd x) with MMeta => true | _ => false end) l).
(** defineTriggers(), :297-311, of one field: the names listed *)
Definition listed (f : fdef) : list str :=
  fold_left (fun acc x => set_add x acc) (getlines 44 (fc_trigger (fd_conf f))) [].
Definition has_triggers (l : list fdef) : bool := existsb (fun f => negb (is_nil (fc_trigger (fd_conf f)))) l.
(** std::stable_sort by putOrder, defineFieldSortOrder() :250-266 *)
Definition order_of (f : fdef) : Z := fc_order (fd_conf f).
Fixpoint insert_field (f : fdef) (l : list fdef) : list fdef :=
  match l with
  | [] => [f]
  | g :: l' => if order_of f <=? order_of g then f :: l else g :: insert_field f l'
  end.
Definition sort_fields (l : list fdef) : list fdef := fold_right insert_field [] l.
(** fieldMap after sorting: the index of a field by its name *)
Fixpoint index_of (n : str) (l : list fdef) : option nat :=
  match l with
  | [] => None
  | f :: l' => if str_eqb (fd_name f) n then Some 0%nat else match index_of n l' with Some i => Some (S i) | None => None end
  end.
(** defineGroupTriggers(), :381-413: targets that do not exist are reported and skipped *)
Definition has_channel (f : fdef) : bool := negb (is_nil (fc_channel (fd_conf f))).
Definition resolve_target (fields : list fdef) (acc : list str) (t : str) : list str :=
  if str_eqb t (bs "*")
  then fold_left (fun a g => if has_channel g then set_add (fd_name g) a else a) fields acc
  else match index_of t fields with
       | None => acc
       | Some i => match nth_error fields i with
                   | Some g => if has_channel g then set_add (fd_name g) acc else acc
                   | None => acc
                   end
       end.
(** resolveTriggerReferences(), resolveGroupTriggerReferences(), :317-371.  Each field
    has its own entry in fieldTriggerMap; only names and channels of other fields are
    read, so the order does not matter. *)
Definition resolve (fields : list fdef) : list fdef :=
  map (fun f => {| fd_name := fd_name f; fd_conf := fd_conf f;
                   fd_triggers :=
                     if has_triggers fields then fold_left (resolve_target fields) (listed f) (fd_triggers f)
                     else if has_channel f then set_add (fd_name f) (fd_triggers f) else fd_triggers f |}) fields.
(** GroupDefinition, ioc/groupdefinition.h; [gd_atomic] None is Unset *)
Record gdef := { gd_name : str; gd_id : str; gd_atomic : option bool; gd_fields : list fdef }.
(** defineGroups(), :170-206, with the resolution of triggers.  [is_record name]:
    dbChannelTest() finds a record of that name *)
Definition define_group (name : str) (g : gconf) : gdef :=
  {| gd_name := name; gd_id := gc_id g;
     gd_atomic := if gc_atomic_set g then Some (gc_atomic g) else None;
     gd_fields := resolve (sort_fields (define_fields (gc_fields g))) |}.
Definition define_groups (is_record : str -> bool) (cs : configs) : list gdef :=
  map (fun x => define_group (fst x) (snd x)) (filter (fun x => negb (is_record (fst x))) cs).

(** ** Database channels *)

(** DBR types, and what the code uses of a dbChannel: its record, final type and
    number of elements, whether it is an INLINK or OUTLINK field, and whether
    Channel::format() is "String" *)
Inductive dbr := DChar | DUChar | DShort | DUShort | DEnum | DLong | DULong | DInt64 | DUInt64 | DFloat | DDouble | DString | DNoAccess.
Record chan := { ch_record : nat; ch_type : dbr; ch_elems : Z; ch_link : bool; ch_text : bool }.
(** fromDbrType(), ioc/typeutils.cpp:19-51 *)
Definition from_dbr (t : dbr) : Z :=
  match t with
  | DChar => tc_Int8
  | DUChar => tc_UInt8
  | DShort => tc_Int16
  | DUShort | DEnum => tc_UInt16
  | DLong => tc_Int32
  | DULong => tc_UInt32
  | DInt64 => tc_Int64
  | DUInt64 => tc_UInt64
  | DFloat => tc_Float32
  | DDouble => tc_Float64
  | DString => tc_String
  | DNoAccess => tc_Null
  end.
Definition is_char (t : dbr) : bool := match t with DChar => true | _ => false end.
Definition is_enum (t : dbr) : bool := match t with DEnum => true | _ => false end.
Definition is_string (t : dbr) : bool := match t with DString => true | _ => false end.
(** IOCSource::getChannelValueType(), ioc/iocsource.cpp:626-651; None = throws *)
Definition channel_type (errOnLinks : bool) (c : chan) : option Z :=
  if errOnLinks && ch_link c then None
  else
    let isArray := negb (ch_elems c =? 1) in
    if is_char (ch_type c) && isArray && ch_text c then Some tc_String
    else Some (if isArray then tc_arrayOf (from_dbr (ch_type c)) else from_dbr (ch_type c)).
(** getTypeDefForChannel(), ioc/groupconfigprocessor.cpp:959-976 *)
Definition channel_def (c : chan) : outcome member :=
  match channel_type true c with
  | None => Throws
  | Some code => if is_enum (ch_type c) then nt_enum
                 else nt_scalar code true true (negb (is_string (ch_type c))) true
  end.

(** ** Fields of a group, ioc/field.h, ioc/field.cpp:19-46 *)
Record cfield := {
  cf_path : list comp;     (* fieldName *)
  cf_full : str;           (* fullName *)
  cf_conf : fconf;         (* id, info *)
  cf_chan : option chan;   (* value, properties *)
  cf_any : option Z;       (* anyType *)
  cf_trig : list nat       (* triggers: positions in Group::fields *)
}.
(** Field::name *)
Definition cf_name (f : cfield) : str := p_name (hd no_comp (cf_path f)).
(** Field::fullName, ioc/field.cpp:29-37 *)
Definition full_name (path : list comp) : str := if is_nil path then [] else print_name path.
Definition make_field (db : str -> option chan) (d : fdef) : option cfield :=
  match parse_name (fd_name d) with
  | None => None
  | Some path =>
      let ch := if has_channel d then db (fc_channel (fd_conf d)) else None in
      if has_channel d && match ch with Some _ => false | None => true end then None
      else
        let any := match fc_type (fd_conf d), ch with
                   | MAny, Some c => Some (if ch_elems c =? 1 then from_dbr (ch_type c) else tc_arrayOf (from_dbr (ch_type c)))
                   | _, _ => None
                   end in
        match any with
        | Some code => if tc_valid code
                       then Some {| cf_path := path; cf_full := full_name path; cf_conf := fd_conf d;
                                    cf_chan := ch; cf_any := any; cf_trig := [] |}
                       else None
        | None => Some {| cf_path := path; cf_full := full_name path; cf_conf := fd_conf d;
                          cf_chan := ch; cf_any := None; cf_trig := [] |}
        end
  end.
(** initialiseGroupFields(), ioc/groupconfigprocessor.cpp:482-490: fields up to the
    first which throws, and whether none did *)
Fixpoint make_fields (db : str -> option chan) (l : list fdef) : list cfield * bool :=
  match l with
  | [] => ([], true)
  | d :: l' => match make_field db d with
               | None => ([], false)
               | Some f => let '(fs, ok) := make_fields db l' in (f :: fs, ok)
               end
  end.
(** Group::operator[], ioc/group.cpp:101-107; None = throws *)
Fixpoint find_full (n : str) (l : list cfield) : option nat :=
  match l with
  | [] => None
  | f :: l' => if str_eqb (cf_full f) n then Some 0%nat else match find_full n l' with Some i => Some (S i) | None => None end
  end.

(** initialiseTriggers(), ioc/groupconfigprocessor.cpp:537-564: positions by
    fieldMap; a position at or beyond the end of Group::fields is undefined
    behaviour (:550) *)
Fixpoint trigger_positions (defs : list fdef) (n : nat) (l : list str) : jres (list nat) :=
  match l with
  | [] => JOk []
  | t :: l' =>
      match index_of t defs with
      | None => trigger_positions defs n l'
      | Some i => if (i <? n)%nat then jmap (cons i) (trigger_positions defs n l') else JUB
      end
  end.
Definition set_trig (i : nat) (t : list nat) (l : list cfield) : list cfield :=
  firstn i l ++ match skipn i l with
                | f :: r => {| cf_path := cf_path f; cf_full := cf_full f; cf_conf := cf_conf f;
                               cf_chan := cf_chan f; cf_any := cf_any f; cf_trig := cf_trig f ++ t |} :: r
                | [] => []
                end.
Fixpoint init_triggers (defs todo : list fdef) (fields : list cfield) : jres (list cfield) :=
  match todo with
  | [] => JOk fields
  | d :: todo' =>
      if has_channel d then
        match find_full (fd_name d) fields with
        | None => JThrow
        | Some i =>
            match trigger_positions defs (length fields) (fd_triggers d) with
            | JOk t => init_triggers defs todo' (set_trig i t fields)
            | JThrow => JThrow | JUB => JUB | JAbort => JAbort
            end
        end
      else init_triggers defs todo' fields
  end.

(** ** The type of a group *)

(** a Member made by its constructor, which checks it *)
Definition new_member (m : member) : outcome member := if member_validate m then OK m else Throws.
(** the loop of setFieldTypeDefinition(), ioc/groupconfigprocessor.cpp:1005-1038:
    [rpath] the components from the leaf on, after the leaf *)
Fixpoint wrap_members (rpath : list comp) (children : list member) : outcome (list member) :=
  match rpath with
  | [] => OK children
  | c :: rpath' =>
      match new_member (Mem (if is_indexed c then tc_StructA else tc_Struct) (p_name c) [] children) with
      | OK m => wrap_members rpath' [m]
      | Throws => Throws
      | Aborts => Aborts
      end
  end.
Definition place_members (path : list comp) (leaf : list member) (isLeaf : bool) : outcome (list member) :=
  if name_empty path then OK leaf
  else wrap_members (if isLeaf then tl (rev path) else rev path) leaf.
Definition obind {A B} (r : outcome A) (k : A -> outcome B) : outcome B :=
  match r with OK a => k a | Throws => Throws | Aborts => Aborts end.
(** type code of a JSON value, ioc/groupconfigprocessor.cpp:648-728 *)
Definition src_code (p : src) : Z :=
  match p with
  | PBool _ => tc_Bool
  | PInt _ | PUInt _ => tc_Int64
  | PReal _ => tc_Float64
  | PStr _ => tc_String
  | _ => tc_Null
  end.
(** addMembersForMetaData(), :940-954 *)
Definition meta_members : list member :=
  [MS tc_Struct "alarm" "alarm_t" alarm_members; nt_as time_t "timeStamp"].
(** addTemplatesForDefinedFields() for one field, :573-608, and addMembersFor...(),
    :867-954 *)
Definition field_members (f : cfield) : outcome (list member) :=
  let leaf := p_name (leaf_comp (cf_path f)) in
  match fc_type (cf_conf f) with
  | MScalar =>
      if name_empty (cf_path f) then Aborts
      else match cf_chan f with
           | None => Throws
           | Some c => obind (channel_def c) (fun m =>
               place_members (cf_path f) [Mem (m_code m) leaf (m_id m) (m_children m)] true)
           end
  | MPlain =>
      if name_empty (cf_path f) then Aborts
      else match cf_chan f with
           | None => Throws
           | Some c => match channel_type true c with
                       | None => Throws
                       | Some code => if tc_valid code then place_members (cf_path f) [Mem code leaf [] []] true else Throws
                       end
           end
  | MAny =>
      if name_empty (cf_path f) then Aborts
      else obind (new_member (Mem tc_Any leaf [] [])) (fun m => place_members (cf_path f) [m] true)
  | MMeta => place_members (cf_path f) meta_members false
  | MProc => OK []
  | MStructure =>
      obind (new_member (Mem (if is_indexed (leaf_comp (cf_path f)) then tc_StructA else tc_Struct) (cf_name f) (fc_id (cf_conf f)) []))
            (fun m => place_members (cf_path f) [m] true)
  | MConst =>
      match fc_const (cf_conf f) with
      | None => Throws
      | Some p => if name_empty (cf_path f) then Throws
                  else place_members (cf_path f) [Mem (src_code p) leaf [] []] true
      end
  end.
(** the default member, ioc/groupconfigprocessor.cpp:504-512 *)
Definition record_member : member :=
  MS tc_Struct "record" "" [MS tc_Struct "_options" "" [M tc_Int32 "queueSize"; M tc_Bool "atomic"]].
Fixpoint template_members (defs : list fdef) (fields : list cfield) : outcome (list member) :=
  match defs with
  | [] => OK []
  | d :: defs' =>
      match find_full (fd_name d) fields with
      | None => Throws
      | Some i =>
          match nth_error fields i with
          | None => Throws
          | Some f =>
              (* the mapping type is that of the definition *)
              obind (field_members {| cf_path := cf_path f; cf_full := cf_full f;
                                      cf_conf := {| fc_channel := fc_channel (cf_conf f); fc_trigger := fc_trigger (cf_conf f);
                                                    fc_id := fc_id (cf_conf f); fc_type := fc_type (fd_conf d);
                                                    fc_order := fc_order (cf_conf f); fc_const := fc_const (cf_conf f) |};
                                      cf_chan := cf_chan f; cf_any := cf_any f; cf_trig := cf_trig f |})
                    (fun ms => obind (template_members defs' fields) (fun r => OK (ms ++ r)))
          end
      end
  end.
(** initialiseValueTemplate(), :499-525 *)
Definition template (g : gdef) (fields : list cfield) : outcome member :=
  obind (template_members (gd_fields g) fields) (fun ms =>
    typedef_append (Mem tc_Struct [] (gd_id g) []) (record_member :: ms)).

(** ** Creation, createGroups(), ioc/groupconfigprocessor.cpp:423-466 *)

(** Group, ioc/group.h; [g_type] None: valueTemplate is still empty *)
Record group := { g_name : str; g_atomic : bool; g_fields : list cfield; g_type : option member }.
(** Both passes for one group; they do not depend on other groups.  A group which
    failed stays in the map. *)
Definition create_group (db : str -> option chan) (g : gdef) : jres group :=
  let atomic := match gd_atomic g with Some false => false | _ => true end in
  let '(fields, _) := make_fields db (gd_fields g) in
  match init_triggers (gd_fields g) (gd_fields g) fields with
  | JUB => JUB
  | JAbort => JAbort
  | JThrow => JOk {| g_name := gd_name g; g_atomic := atomic; g_fields := fields; g_type := None |}
  | JOk fields' =>
      match template g fields' with
      | Aborts => JAbort
      | Throws => JOk {| g_name := gd_name g; g_atomic := atomic; g_fields := fields'; g_type := None |}
      | OK m => JOk {| g_name := gd_name g; g_atomic := atomic; g_fields := fields'; g_type := Some m |}
      end
  end.
Fixpoint create_groups (db : str -> option chan) (l : list gdef) : jres (list group) :=
  match l with
  | [] => JOk []
  | g :: l' =>
      match create_group db g with
      | JOk x => jmap (cons x) (create_groups db l')
      | JThrow => JThrow | JUB => JUB | JAbort => JAbort
      end
  end.
(** processGroups(), ioc/groupsourcehooks.cpp:166-189 *)
Definition process_groups (fp : fpu) (is_record : str -> bool) (db : str -> option chan)
           (records : list (str * jtext)) (fs : files) : jres (list group) :=
  match load_records fp records [] with
  | (cs1, JOk _) =>
      match load_files fp (map snd fs) cs1 with
      | (cs2, JOk _) => create_groups db (define_groups is_record (validate_groups cs2))
      | (_, r) => jmap (fun _ => []) r
      end
  | (_, r) => jmap (fun _ => []) r
  end.
(** GroupSource::GroupSource() and onSearch(), ioc/groupsource.cpp:43-71, 107-114: the
    names answered for *)
Definition claims (groups : list group) (name : str) : bool := existsb (fun g => str_eqb (g_name g) name) groups.
