(** Specification vocabulary for the standard types: the layout of each, written as a
    list of its fields with their full names. *)
From Coq Require Import String ZArith List Bool.
From Verif Require Import Base WireModel TypeModel TypeSpec ValueModel ValueSpec MarkModel MarkSpec CopyModel CopySpec.
Import ListNotations.
Local Open Scope Z_scope.

(** A field: full name, type code, type id. *)
Definition field := (str * Z * str)%type.
(** All fields below a definition in order of declaration, in any kind of compound. *)
Fixpoint fields_below (prefix : str) (m : member) : list field :=
  match m with
  | Mem code name id children =>
      flat_map (fun c => (prefix ++ m_name c, m_code c, m_id c)
                         :: fields_below (prefix ++ m_name c ++ bs ".") c) children
  end.
(** A definition: a structure with this id and exactly these fields. *)
Definition laid_out (m : member) (id : string) (l : list field) : Prop :=
  m_code m = tc_Struct /\ m_id m = bs id /\ fields_below [] m = l.
Definition F (name : string) (code : Z) : field := (bs name, code, []).
Definition FS (name : string) (code : Z) (id : string) : field := (bs name, code, bs id).

Definition alarm_fields : list field :=
  [FS "alarm" tc_Struct "alarm_t"; F "alarm.severity" tc_Int32; F "alarm.status" tc_Int32; F "alarm.message" tc_String].
Definition time_fields : list field :=
  [FS "timeStamp" tc_Struct "time_t"; F "timeStamp.secondsPastEpoch" tc_Int64; F "timeStamp.nanoseconds" tc_Int32;
   F "timeStamp.userTag" tc_Int32].

(** The scalar types a Normative scalar may hold. *)
Definition primitives : list Z :=
  [tc_Bool; tc_Int8; tc_Int16; tc_Int32; tc_Int64; tc_UInt8; tc_UInt16; tc_UInt32; tc_UInt64; tc_Float32; tc_Float64; tc_String].
(** [c] is primitive [s] or the array of it. *)
Definition of_primitive (c s : Z) : Prop := In s primitives /\ (c = s \/ c = tc_arrayOf s).
Definition numeric (s : Z) : bool := negb (s =? tc_Bool) && negb (s =? tc_String).

(** Fields of NTScalar / NTScalarArray for a value of code [c], with elements of code [s]. *)
Definition scalar_fields (c s : Z) (display control valueAlarm form : bool) : list field :=
  [F "value" c] ++ alarm_fields ++ time_fields ++
  (if display then
     [F "display" tc_Struct]
     ++ (if numeric s then [F "display.limitLow" s; F "display.limitHigh" s] else [])
     ++ [F "display.description" tc_String; F "display.units" tc_String]
     ++ (if numeric s && form then [F "display.precision" tc_Int32; FS "display.form" tc_Struct "enum_t";
                                    F "display.form.index" tc_Int32; F "display.form.choices" tc_StringA] else [])
   else []) ++
  (if control && numeric s then
     [F "control" tc_Struct; F "control.limitLow" s; F "control.limitHigh" s; F "control.minStep" s] else []) ++
  (if valueAlarm && numeric s then
     [F "valueAlarm" tc_Struct; F "valueAlarm.active" tc_Bool; F "valueAlarm.lowAlarmLimit" s; F "valueAlarm.lowWarningLimit" s;
      F "valueAlarm.highWarningLimit" s; F "valueAlarm.highAlarmLimit" s; F "valueAlarm.lowAlarmSeverity" tc_Int32;
      F "valueAlarm.lowWarningSeverity" tc_Int32; F "valueAlarm.highWarningSeverity" tc_Int32;
      F "valueAlarm.highAlarmSeverity" tc_Int32; F "valueAlarm.hysteresis" tc_Float64] else []).

Definition enum_fields : list field :=
  [FS "value" tc_Struct "enum_t"; F "value.index" tc_Int32; F "value.choices" tc_StringA] ++ alarm_fields ++ time_fields
  ++ [F "display" tc_Struct; F "display.description" tc_String].

(** A column as asked for: type of its cells, name, and label if any. *)
Definition request := (Z * str * option str)%type.
Definition r_code (r : request) : Z := fst (fst r).
Definition r_name (r : request) : str := snd (fst r).
Definition r_label (r : request) : str := match snd r with Some l => l | None => r_name r end.
(** Types a column may have: anything but an array, except that the wire format
    knows. *)
Definition column_type (c : Z) : Prop := In c (primitives ++ [tc_Struct; tc_Union; tc_Any]).
Definition table_fields (l : list request) : list field :=
  [F "labels" tc_StringA; F "value" tc_Struct]
  ++ map (fun r => (bs "value." ++ r_name r, tc_arrayOf (r_code r), [])) l
  ++ [F "descriptor" tc_String] ++ alarm_fields ++ time_fields.

(** NTURI with these arguments *)
Definition uri_fields (args : list member) : list field :=
  [F "scheme" tc_String; F "authority" tc_String; F "path" tc_String; F "query" tc_Struct]
  ++ fields_below (bs "query.") (Mem tc_Struct [] [] args).

(** An argument [p] given for a field of code [c], and what is stored: text, numbers
    in range and booleans, each in a field of its own type. *)
Inductive stores : Z -> src -> sto value -> Prop :=
| st_text : forall s, stores tc_String (PStr s) (SStr s)
| st_bool : forall b, stores tc_Bool (PBool b) (SBool b)
| st_real : forall x, stores tc_Float64 (PReal x) (SReal x)
| st_int : forall c p z, int_code c -> int_src p z -> in_type c z -> stores c p (int_sto c z).
