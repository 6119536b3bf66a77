(** Model of the standard ("normative") types, src/nt.cpp and src/pvxs/nt.h:
    time and alarm structures, NTScalar, NTEnum, NTTable, NTNDArray, NTURI.

    Members and definitions are those of TypeModel.  A Member is checked when it is
    constructed; here the checks are made when the definition is ([nt_def],
    [nt_more]), which only moves an exception to a later statement of the same
    function.

    No proofs in this file. *)
From Coq Require Import String ZArith List Bool.
From Verif Require Import Base WireModel TypeModel ValueModel MarkModel CopyModel.
Import ListNotations.
Local Open Scope Z_scope.

(** members::Int32(name) and so on, src/pvxs/data.h:313-340 *)
Definition M (code : Z) (name : string) : member := Mem code (bs name) [] [].
(** members::Struct(name, id, children) and so on, src/pvxs/data.h:342-353 *)
Definition MS (code : Z) (name id : string) (children : list member) : member := Mem code (bs name) (bs id) children.

(** TypeDef(code, id, children), src/pvxs/data.h:395-402 *)
Definition nt_def (id : string) (children : list member) : outcome member :=
  let m := Mem tc_Struct [] (bs id) children in
  match typedef_make m with OK _ => OK m | Throws => Throws | Aborts => Aborts end.
(** def += { ... } *)
Definition nt_more (def : outcome member) (adopts : list member) : outcome member :=
  match def with
  | OK m => if forallb member_built adopts then typedef_append m adopts else Throws
  | r => r
  end.
(** TypeDef::as(name), src/type.cpp:338-346 *)
Definition nt_as (m : member) (name : string) : member := Mem (m_code m) (bs name) (m_id m) (m_children m).

(** TimeStamp::build(), src/nt.cpp:13-23 *)
Definition time_t : member :=
  Mem tc_Struct [] (bs "time_t") [M tc_Int64 "secondsPastEpoch"; M tc_Int32 "nanoseconds"; M tc_Int32 "userTag"].
(** Alarm::build(), src/nt.cpp:25-35; the same list is in NTScalar (:47-51) and NTNDArray (:190-194) *)
Definition alarm_members : list member := [M tc_Int32 "severity"; M tc_Int32 "status"; M tc_String "message"].
Definition alarm_t : member := Mem tc_Struct [] (bs "alarm_t") alarm_members.

(** Kind::Integer, Kind::Real, src/pvxs/data.h:130-140 *)
Definition isnumeric (c : Z) : bool := (tc_kind c =? 0x20) || (tc_kind c =? 0x40).

(** NTScalar::build(), src/nt.cpp:37-111 *)
Definition nt_scalar (value : Z) (display control valueAlarm form : bool) : outcome member :=
  if negb (tc_valid value) || tc_compound value then Throws
  else
    let def0 := nt_def (if tc_isarray value then "epics:nt/NTScalarArray:1.0" else "epics:nt/NTScalar:1.0")
                  [M value "value"; MS tc_Struct "alarm" "alarm_t" alarm_members; nt_as time_t "timeStamp"] in
    let scalar := tc_scalarOf value in
    let def1 :=
      if display && isnumeric value then
        let d := nt_more def0 [MS tc_Struct "display" ""
                   [M scalar "limitLow"; M scalar "limitHigh"; M tc_String "description"; M tc_String "units"]] in
        if form then nt_more d [MS tc_Struct "display" ""
                   [M tc_Int32 "precision"; MS tc_Struct "form" "enum_t" [M tc_Int32 "index"; M tc_StringA "choices"]]]
        else d
      else if display then nt_more def0 [MS tc_Struct "display" "" [M tc_String "description"; M tc_String "units"]]
      else def0 in
    let def2 :=
      if control && isnumeric value
      then nt_more def1 [MS tc_Struct "control" "" [M scalar "limitLow"; M scalar "limitHigh"; M scalar "minStep"]]
      else def1 in
    if valueAlarm && isnumeric value
    then nt_more def2 [MS tc_Struct "valueAlarm" ""
           [M tc_Bool "active"; M scalar "lowAlarmLimit"; M scalar "lowWarningLimit"; M scalar "highWarningLimit";
            M scalar "highAlarmLimit"; M tc_Int32 "lowAlarmSeverity"; M tc_Int32 "lowWarningSeverity";
            M tc_Int32 "highWarningSeverity"; M tc_Int32 "highAlarmSeverity"; M tc_Float64 "hysteresis"]]
    else def2.

(** NTEnum::build(), src/nt.cpp:113-130 *)
Definition nt_enum : outcome member :=
  nt_def "epics:nt/NTEnum:1.0"
    [MS tc_Struct "value" "enum_t" [M tc_Int32 "index"; M tc_StringA "choices"];
     nt_as alarm_t "alarm"; nt_as time_t "timeStamp"; MS tc_Struct "display" "" [M tc_String "description"]].

(** NTTable::Pvt::Col, src/nt.cpp:132-138; a column as stored *)
Record column := { c_code : Z; c_name : str; c_label : str }.
(** NTTable::add_column(), src/nt.cpp:146-155; [label] None is nullptr.  None = throws *)
Definition add_column (code : Z) (name : str) (label : option str) (cols : list column) : option (list column) :=
  if negb (tc_valid code) || tc_isarray code then None
  else Some (cols ++ [{| c_code := tc_arrayOf code; c_name := name;
                         c_label := match label with Some l => l | None => name end |}]).
(** a sequence of calls, on one table *)
Fixpoint add_columns (l : list (Z * str * option str)) (cols : list column) : option (list column) :=
  match l with
  | [] => Some cols
  | (code, name, label) :: l' =>
      match add_column code name label cols with Some cols' => add_columns l' cols' | None => None end
  end.
(** NTTable::build(), src/nt.cpp:157-175 *)
Definition nt_table (cols : list column) : outcome member :=
  nt_def "epics:nt/NTTable:1.0"
    [M tc_StringA "labels"; MS tc_Struct "value" "" (map (fun c => Mem (c_code c) (c_name c) [] []) cols);
     M tc_String "descriptor"; nt_as alarm_t "alarm"; nt_as time_t "timeStamp"].

(** a Value of a definition: TypeDef::create(), src/type.cpp:410-416 *)
Definition nt_create (def : outcome member) : outcome value :=
  match def with
  | OK m => match value_new (flatten m) with DOK v => OK v | DThrow => Throws | DUB | DFuel => Aborts end
  | Throws => Throws
  | Aborts => Aborts
  end.
(** value[name] = x for a member of the top level Struct: operator[] and from(); an unknown name gives
    an empty Value, to which nothing can be assigned, src/data.cpp:532-545.
    Simplification: a name without '.', '<', '[' and '-', so one entry of mlookup *)
Definition set_member (fuel : nat) (fp : fpu) (same : list fdesc -> list fdesc -> bool) (v : value) (name : str) (p : src)
  : outcome value :=
  match v with
  | Val nodes cells =>
      match map_get name (f_lookup (first_node nodes)) with
      | None => Throws
      | Some i => match copy_in fuel fp same nodes cells i p with
                  | (ROk, _, cells') => OK (Val nodes cells')
                  | (RUB, _, _) | (RFuel, _, _) => Aborts
                  | _ => Throws
                  end
      end
  end.
(** NTTable::create(), src/nt.cpp:177-190 *)
Definition nt_table_create (fuel : nat) (fp : fpu) (same : list fdesc -> list fdesc -> bool) (cols : list column) : outcome value :=
  match nt_create (nt_table cols) with
  | OK v => set_member fuel fp same v (bs "labels") (PArr (AStr (map c_label cols)))
  | r => r
  end.

(** NTNDArray::build(), src/nt.cpp:192-252 *)
Definition nt_ndarray : outcome member :=
  nt_def "epics:nt/NTNDArray:1.0"
    [MS tc_Union "value" ""
       [M tc_BoolA "booleanValue"; M (tc_arrayOf tc_Int8) "byteValue"; M (tc_arrayOf tc_Int16) "shortValue";
        M (tc_arrayOf tc_Int32) "intValue"; M (tc_arrayOf tc_Int64) "longValue"; M (tc_arrayOf tc_UInt8) "ubyteValue";
        M (tc_arrayOf tc_UInt16) "ushortValue"; M (tc_arrayOf tc_UInt32) "uintValue"; M (tc_arrayOf tc_UInt64) "ulongValue";
        M tc_Float32 "floatValue"; M tc_Float64 "doubleValue"];
     MS tc_Struct "codec" "codec_t" [M tc_String "name"; M tc_Any "parameters"];
     M tc_Int64 "compressedSize"; M tc_Int64 "uncompressedSize"; M tc_Int32 "uniqueId";
     nt_as time_t "dataTimeStamp"; MS tc_Struct "alarm" "alarm_t" alarm_members; nt_as time_t "timeStamp";
     MS tc_StructA "dimension" "dimension_t"
       [M tc_Int32 "size"; M tc_Int32 "offset"; M tc_Int32 "fullSize"; M tc_Int32 "binning"; M tc_Bool "reverse"];
     MS tc_StructA "attribute" "epics:nt/NTAttribute:1.0"
       [M tc_String "name"; M tc_Any "value"; M tc_StringA "tags"; M tc_String "descriptor";
        MS tc_Struct "alarm" "alarm_t" alarm_members; nt_as time_t "timeStamp"; M tc_Int32 "sourceType"; M tc_String "source"]].

(** NTURI::NTURI(), src/nt.cpp:254-265 *)
Definition nt_uri (args : list member) : outcome member :=
  nt_def "epics:nt/NTURI:1.0"
    [M tc_String "scheme"; M tc_String "authority"; M tc_String "path"; MS tc_Struct "query" "" args].
(** NTURI::_assign(), src/pvxs/nt.h:181-193 *)
Fixpoint uri_assign (fuel : nat) (fp : fpu) (same : list fdesc -> list fdesc -> bool)
         (nodes : list fdesc) (cells : list cell) (at_ : list nat) (l : list src) : outcome (list cell) :=
  match l with
  | [] => OK cells
  | p :: l' =>
      match at_ with
      | [] => Throws
      | i :: at' =>
          match copy_in fuel fp same nodes cells i p with
          | (ROk, _, cells') => uri_assign fuel fp same nodes cells' at' l'
          | (RUB, _, _) | (RFuel, _, _) => Aborts
          | _ => Throws
          end
      end
  end.
(** NTURI::call(), src/pvxs/nt.h:195-202 *)
Definition uri_call (fuel : nat) (fp : fpu) (same : list fdesc -> list fdesc -> bool) (args : list member) (l : list src) : outcome value :=
  match nt_create (nt_uri args) with
  | OK (Val nodes cells) =>
      match map_get (bs "query") (f_lookup (first_node nodes)) with
      | None => Throws
      | Some q => match uri_assign fuel fp same nodes cells (ichildren nodes q) l with
                  | OK cells' => OK (Val nodes cells')
                  | Throws => Throws
                  | Aborts => Aborts
                  end
      end
  | r => r
  end.
