(** Model of assignment to and extraction from fields of a Value: copyIn(),
    copyOut(), assign(), clone(), cache_sync() (src/data.cpp), and of array
    element conversion (src/sharedarray.cpp).

    Simplifications.  A Value is a tree (ValueModel.v): storing a Value in an Any
    or an array, and sharing an array, copies it here.  The check for Any
    self-assignment (src/data.cpp:667) needs sharing and is left out.  Floating
    point is a parameter.  Memory allocation does not fail.

    No proofs in this file. *)
From Coq Require Import ZArith List Bool.
From Verif Require Import Base WireModel TypeModel ValueModel MarkModel TextModel.
Import ListNotations.
Local Open Scope Z_scope.

(** Floating point as the compiler and C library provide it.  Numbers are bit
    patterns, of 64 bits except where 32 is said. *)
Record fpu := {
  fp_of_int : Z -> Z;             (** integer to double *)
  fp32_of_int : Z -> Z;           (** integer to float (32 bit pattern) *)
  fp_trunc : Z -> option Z;       (** double to integer, towards zero; None: not finite *)
  fp_nonzero : Z -> bool;         (** double to bool *)
  fp_widen : Z -> Z;              (** float (32 bit pattern) to double *)
  fp_narrow : Z -> Z;             (** double to float (32 bit pattern) *)
  fp_print : Z -> str;            (** ostream << double *)
  fp32_print : Z -> str;          (** ostream << float *)
  fp_parse : str -> option Z      (** parseTo<double>, src/util.cpp:758-774; None = NoConvert *)
}.

(** What a function did, as far as callers can tell the exceptions apart:
    NoConvert, NoField, another exception, undefined behaviour.  RFuel is an
    artefact of the model. *)
Inductive rstat := ROk | RNoConvert | RNoField | RError | RUB | RFuel.
Inductive cv (A : Type) := CV (a : A) | CFail (r : rstat).
Arguments CV {A} a.
Arguments CFail {A} r.

(** The argument (ptr, type) of copyIn().  [PVal (Some (v, i))] is the field
    number i of the value v; [PVal None] the empty Value. *)
Inductive src :=
| PNull
| PReal (bits : Z)
| PInt (z : Z)
| PUInt (z : Z)
| PBool (b : bool)
| PStr (s : str)
| PArr (a : arr value)
| PVal (o : option (value * nat)).

(** ** Scalars *)

(** integer types by TypeCode: width and signedness; Bool has width 1 *)
Definition int_bytes (c : Z) : option nat :=
  if (c =? tc_Int8) || (c =? tc_UInt8) then Some 1%nat
  else if (c =? tc_Int16) || (c =? tc_UInt16) then Some 2%nat
  else if (c =? tc_Int32) || (c =? tc_UInt32) then Some 4%nat
  else if (c =? tc_Int64) || (c =? tc_UInt64) then Some 8%nat
  else None.
Definition int_signed (c : Z) : bool := Z.land c 0x04 =? 0.
(** C++ conversion of an integer to the type with code [c] *)
Definition c_cast (c : Z) (z : Z) : Z :=
  if c =? tc_Bool then (if z =? 0 then 0 else 1)
  else match int_bytes c with
       | Some n => if int_signed c then s_cast n z else u_cast n z
       | None => z
       end.
(** conversion of a double to an integer type: undefined unless the truncated
    value is representable *)
Definition real_to_int (fp : fpu) (c : Z) (x : Z) : cv Z :=
  match fp_trunc fp x with
  | Some z => if c_cast c z =? z then CV z else CFail RUB
  | None => CFail RUB
  end.
Definition of_opt {A} (o : option A) : cv A := match o with Some a => CV a | None => CFail RNoConvert end.
Definition bool_z (b : bool) : Z := if b then 1 else 0.

(** copyInScalar<double>, <int64_t>, <uint64_t>, src/data.cpp:515-530, and the
    same conversions in copyOut(), :399-470.  [CFail RNoConvert] for the other
    source types: the caller throws NoConvert. *)
Definition to_real (fp : fpu) (p : src) : cv Z :=
  match p with
  | PReal x => CV x
  | PInt z | PUInt z => CV (fp_of_int fp z)
  | PBool b => CV (fp_of_int fp (bool_z b))
  | PStr s => of_opt (fp_parse fp s)
  | _ => CFail RNoConvert
  end.
Definition to_int (fp : fpu) (p : src) : cv Z :=
  match p with
  | PReal x => real_to_int fp tc_Int64 x
  | PInt z | PUInt z => CV (c_cast tc_Int64 z)
  | PBool b => CV (bool_z b)
  | PStr s => of_opt (parse_i64 s)
  | _ => CFail RNoConvert
  end.
Definition to_uint (fp : fpu) (p : src) : cv Z :=
  match p with
  | PReal x => real_to_int fp tc_UInt64 x
  | PInt z | PUInt z => CV (c_cast tc_UInt64 z)
  | PBool b => CV (bool_z b)
  | PStr s => of_opt (parse_u64 s)
  | _ => CFail RNoConvert
  end.
(** src/data.cpp:580-597 *)
Definition in_bool (p : src) : cv bool :=
  match p with
  | PBool b => CV b
  | PInt z | PUInt z => CV (negb (z =? 0))
  | PStr s => of_opt (parse_bool s)
  | _ => CFail RNoConvert
  end.
(** src/data.cpp:598-611; also copyOutScalar() :409, copyOut() :441 *)
Definition to_text (fp : fpu) (p : src) : cv str :=
  match p with
  | PStr s => CV s
  | PInt z | PUInt z => CV (print_int z)
  | PReal x => CV (fp_print fp x)
  | PBool b => CV (print_bool b)
  | _ => CFail RNoConvert
  end.

(** what a field holds, as an argument for copyIn(&store, code) *)
Definition src_of (fp : fpu) (d : fdesc) (s : sto value) : src :=
  match s with
  | SNull => PNull
  | SReal x => PReal (if f_code d =? tc_Float32 then fp_widen fp x else x)
  | SInt z => PInt z
  | SUInt z => PUInt z
  | SBool b => PBool b
  | SStr t => PStr t
  | SSel None => PVal None
  | SSel (Some (_, v)) => PVal (Some (v, O))
  | SArr a => PArr a
  end.

(** copyOut(ptr, type), src/data.cpp:419-499: type asked for *)
Inductive want := WReal | WInt | WUInt | WBool | WStr | WArr | WVal.
(** bool(src) for numbers, copyOutScalar() :407; for a string :456-459 *)
Definition out_bool (fp : fpu) (p : src) : cv bool :=
  match p with
  | PReal x => CV (fp_nonzero fp x)
  | _ => in_bool p
  end.
(** copyOut() from a field which is not Compound *)
Definition out_leaf (fp : fpu) (p : src) (w : want) : cv src :=
  let lift {A} (f : A -> src) (r : cv A) := match r with CV a => CV (f a) | CFail e => CFail e end in
  match w with
  | WReal => lift PReal (to_real fp p)
  | WInt => lift PInt (to_int fp p)
  | WUInt => lift PUInt (to_uint fp p)
  | WBool => lift PBool (out_bool fp p)
  | WStr => lift PStr (to_text fp p)
  | WArr => match p with PArr a => CV (PArr a) | _ => CFail RNoConvert end
  | WVal => CFail RNoConvert
  end.
(** copyOut() of field [i] of [v]; a selected Union or Any forwards (:479-493) *)
Fixpoint copy_out (fuel : nat) (fp : fpu) (v : value) (i : nat) (w : want) : cv src :=
  match nth_error (v_nodes v) i, nth_error (v_cells v) i with
  | Some d, Some (_, s) =>
      match s with
      | SSel o =>
          match w with
          | WVal => CV (src_of fp d s)
          | _ =>
              match o with
              | None => CFail RNoConvert
              | Some (_, v') => match fuel with O => CFail RFuel | S f => copy_out f fp v' 0 w end
              end
          end
      | _ => out_leaf fp (src_of fp d s) w
      end
  | _, _ => CFail RUB
  end.

(** ** Arrays, src/sharedarray.cpp:235-500 *)

(** The template arguments of convertCast<Src, Dest> in convertArr() for the
    integer and bool element types, src/sharedarray.cpp:246-392.  memcpy is
    given as a cast between the two types themselves, which have one width. *)
Definition cast_types (st dt : Z) : option (Z * Z) :=
  let to8 := (dt =? tc_Int8) || (dt =? tc_UInt8) in
  let to16 := (dt =? tc_Int16) || (dt =? tc_UInt16) in
  let to32 := (dt =? tc_Int32) || (dt =? tc_UInt32) in
  let to64 := (dt =? tc_Int64) || (dt =? tc_UInt64) in
  let tobool := dt =? tc_Bool in
  if st =? tc_Bool then (* :246-262 *)
    if tobool then Some (tc_Bool, tc_Bool)
    else if to8 then Some (tc_Bool, tc_UInt8) else if to16 then Some (tc_Bool, tc_UInt16)
    else if to32 then Some (tc_Bool, tc_UInt32) else if to64 then Some (tc_Bool, tc_UInt64) else None
  else if st =? tc_Int8 then (* :263-282 *)
    if tobool then Some (tc_Int8, tc_Bool)
    else if to8 || to16 || to32 || to64 then Some (tc_Int8, dt) else None
  else if st =? tc_Int16 then (* :283-300 *)
    if tobool then Some (tc_Int16, tc_Bool)
    else if to8 then Some (tc_UInt16, tc_UInt8)
    else if to16 || to32 || to64 then Some (tc_Int16, dt) else None
  else if st =? tc_Int32 then (* :301-318 *)
    if tobool then Some (tc_Int32, tc_Bool)
    else if to8 then Some (tc_UInt32, tc_UInt8) else if to16 then Some (tc_UInt32, tc_UInt16)
    else if to32 || to64 then Some (tc_Int32, dt) else None
  else if st =? tc_Int64 then (* :319-336 *)
    if tobool then Some (tc_Int64, tc_Bool)
    else if to8 then Some (tc_Int64, tc_Int8) else if to16 then Some (tc_Int64, tc_Int16)
    else if to32 then Some (tc_Int64, tc_Int32) else if to64 then Some (tc_Int64, dt) else None
  else if st =? tc_UInt8 then (* :337-355 *)
    if tobool then Some (tc_UInt8, tc_Bool)
    else if to8 then Some (tc_UInt8, dt) else if to16 then Some (tc_UInt8, tc_UInt16)
    else if to32 then Some (tc_UInt8, tc_UInt32) else if to64 then Some (tc_UInt8, tc_UInt64) else None
  else if st =? tc_UInt16 then (* :356-373 *)
    if tobool then Some (tc_UInt16, tc_Bool)
    else if to8 then Some (tc_UInt16, tc_Int8) else if to16 then Some (tc_UInt16, dt)
    else if to32 then Some (tc_UInt16, tc_UInt32) else if to64 then Some (tc_UInt16, tc_UInt64) else None
  else if st =? tc_UInt32 then (* :374-391 *)
    if tobool then Some (tc_UInt32, tc_Bool)
    else if to8 then Some (tc_UInt32, tc_Int8) else if to16 then Some (tc_UInt32, tc_Int16)
    else if to32 then Some (tc_UInt32, dt) else if to64 then Some (tc_UInt32, tc_Int64) else None
  else if st =? tc_UInt64 then (* :392-409 *)
    if tobool then Some (tc_UInt64, tc_Bool)
    else if to8 then Some (tc_UInt64, tc_Int8) else if to16 then Some (tc_UInt64, tc_Int16)
    else if to32 then Some (tc_UInt64, tc_Int32) else if to64 then Some (tc_UInt64, dt) else None
  else None.
(** bytes of memory of one element; bool: 1 *)
Definition elem_bytes (c : Z) : nat := match int_bytes c with Some n => n | None => 1%nat end.
(** one element: the memory of type [st] read as the Src type, cast to the Dest
    type, and that memory read as [dt].  Src and Dest must have the size of the
    elements; a bool which is neither 0 nor 1 may not be read. *)
Definition conv_int (st dt : Z) (z : Z) : cv Z :=
  match cast_types st dt with
  | Some (s, d) =>
      if negb (Nat.eqb (elem_bytes s) (elem_bytes st) && Nat.eqb (elem_bytes d) (elem_bytes dt)) then CFail RUB
      else if (s =? tc_Bool) && negb ((z =? 0) || (z =? 1)) then CFail RUB
      else CV (c_cast dt (c_cast d (c_cast s z)))
  | None => CFail RNoConvert
  end.
Definition is_int (c : Z) : bool := (c =? tc_Bool) || match int_bytes c with Some _ => true | None => false end.
Definition is_float (c : Z) : bool := (c =? tc_Float32) || (c =? tc_Float64).
(** one element of a numeric array; [st], [dt] are scalar codes *)
Definition conv_num (fp : fpu) (st dt : Z) (z : Z) : cv Z :=
  if is_int st then
    if is_int dt then conv_int st dt z
    else if (st =? tc_Bool) && negb ((z =? 0) || (z =? 1)) then CFail RUB
    else if dt =? tc_Float32 then CV (fp32_of_int fp z)
    else if dt =? tc_Float64 then CV (fp_of_int fp z)
    else CFail RNoConvert
  else if is_float st then
    let x := if st =? tc_Float32 then fp_widen fp z else z in
    if dt =? tc_Bool then CV (bool_z (fp_nonzero fp x))
    else if is_int dt then real_to_int fp dt x
    else if dt =? tc_Float32 then CV (if st =? tc_Float32 then z else fp_narrow fp z)
    else if dt =? tc_Float64 then CV x
    else CFail RNoConvert
  else CFail RNoConvert.
(** convertToStr<>, :188-195 with promote_print<> (8 bit integers as numbers) *)
Definition num_text (fp : fpu) (st : Z) (z : Z) : cv str :=
  if st =? tc_Bool then (if (z =? 0) || (z =? 1) then CV (print_bool (z =? 1)) else CFail RUB)
  else if is_int st then CV (print_int z)
  else if st =? tc_Float32 then CV (fp32_print fp z)
  else if st =? tc_Float64 then CV (fp_print fp z)
  else CFail RNoConvert.
(** parseValue(), :197-230: a bad bool is a std::runtime_error, not NoConvert *)
Definition text_num (fp : fpu) (dt : Z) (s : str) : cv Z :=
  if dt =? tc_Bool then match parse_bool s with Some b => CV (bool_z b) | None => CFail RError end
  else if is_int dt then
    match (if int_signed dt then parse_i64 s else parse_u64 s) with
    | Some z => CV (c_cast dt z)
    | None => CFail RNoConvert
    end
  else if dt =? tc_Float32 then
    match fp_parse fp s with Some x => CV (fp_narrow fp x) | None => CFail RNoConvert end
  else if dt =? tc_Float64 then of_opt (fp_parse fp s)
  else CFail RNoConvert.

Fixpoint map_cv {A B} (f : A -> cv B) (l : list A) : cv (list B) :=
  match l with
  | [] => CV []
  | x :: l' =>
      match f x with
      | CFail e => CFail e
      | CV y => match map_cv f l' with CV r => CV (y :: r) | CFail e => CFail e end
      end
  end.
(** copyAs(), :477-500, for a source of scalars; [c] is the code of the
    destination field, an array code *)
Definition copy_as (fp : fpu) (c : Z) (a : arr value) : cv (arr value) :=
  let lift {A} (f : A -> arr value) (r : cv A) := match r with CV x => CV (f x) | CFail e => CFail e end in
  match a with
  | APod t l =>
      if c =? tc_StringA then lift AStr (map_cv (num_text fp (tc_scalarOf t)) l)
      else if tc_compound c then CFail RNoConvert
      else lift (APod c) (map_cv (conv_num fp (tc_scalarOf t) (tc_scalarOf c)) l)
  | AStr l =>
      if c =? tc_StringA then CV (AStr l)
      else if tc_compound c then CFail RNoConvert
      else lift (APod c) (map_cv (text_num fp (tc_scalarOf c)) l)
  | _ => CFail RNoConvert
  end.
Definition arr_nil (a : arr value) : bool :=
  match a with ANull => true | APod _ l => is_nil l | AStr l => is_nil l | AVals l => is_nil l end.

(** ** copyIn() *)

(** State after a call: what happened, whether mark() was called on the field
    or on something inside it (mark() marks the enclosing fields too,
    src/data.cpp:265-270), and the new storage. *)
Section Copy.
  Variable fp : fpu.
  (** whether two types are the same object in memory (pointer comparison of
      val.desc with desc->members.data(), src/data.cpp:631) *)
  Variable same : list fdesc -> list fdesc -> bool.
  (** copyIn() on a field: of this value, or of one inside it *)
  Variable rec : list fdesc -> list cell -> nat -> src -> rstat * bool * list cell.

  (** assign() to the root field of a value, src/data.cpp:153-166 *)
  Definition assign_root (nodes : list fdesc) (cells : list cell) (sv : value) (si : nat) : rstat * bool * list cell :=
    if tc_compound (f_code (first_node nodes)) then rec nodes cells 0%nat (PVal (Some (sv, si)))
    else match nth_error (v_nodes sv) si, nth_error (v_cells sv) si with
         | Some d, Some (_, s) => rec nodes cells 0%nat (src_of fp d s)
         | _, _ => (RUB, false, cells)
         end.

  (** elements of an array of Struct or Union, with conversion, src/data.cpp:636-644 *)
  Fixpoint copy_elems (nodes : list fdesc) (l : list (option value)) : rstat * bool * list (option value) :=
    match l with
    | [] => (ROk, false, [])
    | None :: l' => let '(r, t, o) := copy_elems nodes l' in (r, t, None :: o)
    | Some v :: l' =>
        match value_new nodes with
        | DOK (Val n c) =>
            match assign_root n c v 0 with
            | (ROk, t, c') => let '(r, t', o) := copy_elems nodes l' in (r, t || t', Some (Val n c') :: o)
            | (r, t, _) => (r, t, [])
            end
        | DThrow => (RError, false, [])
        | DUB => (RUB, false, [])
        | DFuel => (RFuel, false, [])
        end
    end.

  (** src/data.cpp:612-657 *)
  Definition copy_arr (d : fdesc) (old : arr value) (a : arr value) : rstat * bool * arr value :=
    let c := f_code d in
    if arr_nil a then (ROk, false, ANull)
    else
      match a with
      | AVals l =>
          if tc_compound c then
            if negb (c =? tc_AnyA)
               && existsb (fun o => match o with Some v => negb (same (v_nodes v) (f_members d)) | None => false end) l
            then match copy_elems (f_members d) l with
                 | (ROk, t, l') => (ROk, t, AVals l')
                 | (r, t, _) => (r, t, old)
                 end
            else (ROk, false, a)
          else (RNoConvert, false, old)
      | _ =>
          if match a with APod t _ => c =? t | AStr _ => c =? tc_StringA | _ => false end
          then (ROk, false, a)
          else match copy_as fp c a with CV a' => (ROk, false, a') | CFail r => (r, false, old) end
      end.

  (** Helper::build() for an Any, src/data.cpp:42-93, from a source which is
      neither Null nor Compound *)
  Definition build_code (p : src) : option Z :=
    match p with
    | PBool _ => Some tc_Bool
    | PInt _ => Some tc_Int64
    | PUInt _ => Some tc_UInt64
    | PReal _ => Some tc_Float64
    | PStr _ => Some tc_String
    | PArr (APod t _) => Some t
    | PArr (AStr _) => Some tc_StringA
    | PArr (AVals _) => Some tc_AnyA
    | _ => None
    end.

  (** the value with the fields from [i] on: Value handle of a field, kept alone *)
  Definition sub_value (v : value) (i : nat) : value :=
    let n := match nth_error (v_nodes v) i with Some d => f_size d | None => 0%nat end in
    Val (firstn n (skipn i (v_nodes v))) (firstn n (skipn i (v_cells v))).

  (** first Union member with the type of the source, src/data.cpp:684-695 *)
  Fixpoint pick_equal (sn : list fdesc) (members : list fdesc) (it : list (str * nat)) : option (option nat) :=
    match it with
    | [] => Some None
    | (_, i) :: it' =>
        match fd_equal (nodes_weight sn) sn (skipn i members) with
        | Some true => Some (Some i)
        | Some false => pick_equal sn members it'
        | None => None
        end
    end.
  (** auto-selection, src/data.cpp:702-716 *)
  Fixpoint pick_fitting (members : list fdesc) (p : src) (it : list (str * nat)) : rstat * bool * option (nat * value) :=
    match it with
    | [] => (RNoConvert, false, None)
    | (_, i) :: it' =>
        match value_new (sub_desc i members) with
        | DOK (Val n c) =>
            match rec n c 0%nat p with
            | (ROk, t, c') => (ROk, t, Some (i, Val n c'))
            | (RNoConvert, t, _) => let '(r, t', o) := pick_fitting members p it' in (r, t || t', o)
            | (r, t, _) => (r, t, None)
            end
        | DThrow => (RError, false, None)
        | DUB => (RUB, false, None)
        | DFuel => (RFuel, false, None)
        end
    end.

  Definition done (r : cv (sto value)) (old : sto value) : rstat * bool * sto value :=
    match r with CV s => (ROk, false, s) | CFail e => (e, false, old) end.
  Definition cv_map {A B} (f : A -> B) (r : cv A) : cv B := match r with CV a => CV (f a) | CFail e => CFail e end.

  (** copyIn() on a field which is not a Struct, src/data.cpp:541-725, without
      the final mark() *)
  Definition copy_node (d : fdesc) (s : sto value) (p : src) : rstat * bool * sto value :=
    let c := f_code d in
    match s with
    | SNull => (RNoConvert, false, s)
    | SReal _ => done (cv_map (fun x => SReal (if c =? tc_Float32 then fp_narrow fp x else x)) (to_real fp p)) s
    | SInt _ => done (cv_map (fun z => SInt (c_cast c z)) (to_int fp p)) s
    | SUInt _ => done (cv_map (fun z => SUInt (c_cast c z)) (to_uint fp p)) s
    | SBool _ => done (cv_map SBool (in_bool p)) s
    | SStr _ => done (cv_map SStr (to_text fp p)) s
    | SArr old =>
        match p with
        | PArr a => let '(r, t, a') := copy_arr d old a in (r, t, SArr a')
        | _ => (RNoConvert, false, s)
        end
    | SSel old =>
        match p with
        | PNull => (ROk, false, SSel None)
        | _ =>
            if c =? tc_Any then
              match p with
              | PVal None => (ROk, false, SSel None)
              | PVal (Some (v, i)) => (ROk, false, SSel (Some (O, sub_value v i)))
              | _ =>
                  match build_code p with
                  | None => (RError, false, s)
                  | Some bc =>
                      match value_new [fd_new bc] with
                      | DOK (Val n cl) =>
                          match rec n cl 0%nat p with
                          | (ROk, _, cl') => (ROk, false, SSel (Some (O, Val n cl')))
                          | (r, _, _) => (r, false, s)
                          end
                      | DThrow => (RError, false, s)
                      | DUB => (RUB, false, s)
                      | DFuel => (RFuel, false, s)
                      end
                  end
              end
            else if c =? tc_Union then
              match p with
              | PVal o =>
                  (* _equal() of an empty source and a member is false *)
                  match match o with
                        | Some (v, i) => pick_equal (skipn i (v_nodes v)) (f_members d) (f_iter d)
                        | None => Some None
                        end, o with
                  | None, _ => (RFuel, false, s)
                  | Some (Some k), Some (v, i) =>
                      match value_new (sub_desc k (f_members d)) with
                      | DOK (Val n cl) =>
                          match assign_root n cl v i with
                          | (ROk, t, cl') => (ROk, t, SSel (Some (k, Val n cl')))
                          | (r, t, _) => (r, t, s)
                          end
                      | DThrow => (RError, false, s)
                      | DUB => (RUB, false, s)
                      | DFuel => (RFuel, false, s)
                      end
                  | _, _ => match old with None => (RNoConvert, false, s) | Some _ => (ROk, false, s) end
                  end
              | _ =>
                  match old with
                  | None =>
                      match pick_fitting (f_members d) p (f_iter d) with
                      | (ROk, t, o) => (ROk, t, SSel o)
                      | (r, t, _) => (r, t, s)
                      end
                  | Some (k, Val n cl) =>
                      let '(r, t, cl') := rec n cl 0%nat p in (r, t, SSel (Some (k, Val n cl')))
                  end
              end
            else (RNoConvert, false, s)
        end
    end.

  Definition put (i : nat) (b : bool) (s : sto value) (cells : list cell) : list cell :=
    match nth_error cells i with
    | Some (b0, _) => cell_set i (b0 || b, s) cells
    | None => cells
    end.
  (** copyIn() on field [i], not a Struct: store and mark *)
  Definition copy_field (nodes : list fdesc) (cells : list cell) (i : nat) (p : src) : rstat * bool * list cell :=
    match nth_error nodes i, nth_error cells i with
    | Some d, Some (_, s) =>
        match copy_node d s p with
        | (ROk, _, s') => (ROk, true, put i true s' cells)
        | (r, t, s') => (r, t, put i t s' cells)
        end
    | _, _ => (RUB, false, cells)
    end.

  (** nameOf() of a Struct, src/data.cpp:372-397.  [off] is the distance.  None =
      throws *)
  Definition name_of (d : fdesc) (off : nat) : option str :=
    if (off =? 0)%nat || (length (f_lookup d) <? off)%nat then None
    else match find (fun p => Nat.eqb (snd p) off) (f_lookup d) with Some (n, _) => Some n | None => None end.

  (** the loop over the marked fields of the source, src/data.cpp:735-757.
      Simplification: operator[](name) is a search for the whole name in mlookup.
      That is what traverse() (:783-975) does for names without '<', '[' and
      '-', as in types made with the API. *)
  Fixpoint copy_fields (nodes : list fdesc) (cells : list cell) (i : nat)
           (sn : list fdesc) (sc : list cell) (si : nat) (l : list nat) (t : bool) : rstat * bool * list cell :=
    match l with
    | [] => (ROk, t, cells)
    | j :: l' =>
        match nth_error sn si, nth_error sn j, nth_error sc j, nth_error nodes i with
        | Some sd, Some jd, Some (_, js), Some d =>
            match name_of sd (j - si) with
            | None => (RError, t, cells)
            | Some name =>
                let found := map_get name (f_lookup d) in
                if f_code jd =? tc_Struct then
                  match found with
                  | Some off => copy_fields nodes (set_mark true cells (i + off)) i sn sc si l' true
                  | None => copy_fields nodes cells i sn sc si l' t
                  end
                else
                  match found with
                  | None => (RNoField, t, cells)
                  | Some off =>
                      match rec nodes cells (i + off)%nat (src_of fp jd js) with
                      | (ROk, t', cells') => copy_fields nodes cells' i sn sc si l' (t || t')
                      | (r, t', cells') => (r, t || t', cells')
                      end
                  end
            end
        | _, _, _, _ => (RUB, t, cells)
        end
    end.

  (** copyIn() on field [i], src/data.cpp:532-768 *)
  Definition copy_at (nodes : list fdesc) (cells : list cell) (i : nat) (p : src) : rstat * bool * list cell :=
    match nth_error nodes i with
    | None => (RUB, false, cells)
    | Some d =>
        if f_code d =? tc_Struct then
          match p with
          | PVal (Some (Val sn sc, si)) =>
              match nth_error sn si with
              | Some sd =>
                  if f_code sd =? tc_Struct then
                    match imarked sn sc si with
                    | None => (RFuel, false, cells)
                    | Some l =>
                        match copy_fields nodes cells i sn sc si l false with
                        | (ROk, t, cells') =>
                            match is_marked sn sc si true false with
                            | DOK true => (ROk, true, set_mark true cells' i)
                            | DOK false => (ROk, t, cells')
                            | DThrow => (RError, t, cells')
                            | DUB => (RUB, t, cells')
                            | DFuel => (RFuel, t, cells')
                            end
                        | r => r
                        end
                    end
                  else (RNoConvert, false, cells)
              | None => (RUB, false, cells)
              end
          | _ => (RNoConvert, false, cells)
          end
        else copy_field nodes cells i p
    end.
End Copy.

(** copyIn() on field [i] of the value (nodes, cells).  [fuel] bounds the nesting
    of fields and of values in values. *)
Fixpoint copy_in (fuel : nat) (fp : fpu) (same : list fdesc -> list fdesc -> bool)
         (nodes : list fdesc) (cells : list cell) (i : nat) (p : src) : rstat * bool * list cell :=
  match fuel with
  | O => (RFuel, false, cells)
  | S f => copy_at fp same (copy_in f fp same) nodes cells i p
  end.

(** Value::assign(), src/data.cpp:153-166: dst.assign(src), for field [i] of
    (nodes, cells) and field [si] of [sv] *)
Definition assign (fuel : nat) (fp : fpu) (same : list fdesc -> list fdesc -> bool)
           (nodes : list fdesc) (cells : list cell) (i : nat) (sv : value) (si : nat) : rstat * bool * list cell :=
  match nth_error nodes i, nth_error (v_nodes sv) si, nth_error (v_cells sv) si with
  | Some d, Some sd, Some (_, s) =>
      copy_in fuel fp same nodes cells i
        (if tc_compound (f_code d) then PVal (Some (sv, si)) else src_of fp sd s)
  | _, _, _ => (RUB, false, cells)
  end.

(** Value::clone() of a whole value, src/data.cpp:142-151; None: exception or UB *)
Definition clone (fuel : nat) (fp : fpu) (same : list fdesc -> list fdesc -> bool) (v : value) : rstat * option value :=
  match value_new (v_nodes v) with
  | DOK (Val n c) =>
      match assign fuel fp same n c 0 v 0 with
      | (ROk, _, c') => (ROk, Some (Val n c'))
      | (r, _, _) => (r, None)
      end
  | DThrow => (RError, None)
  | DUB => (RUB, None)
  | DFuel => (RFuel, None)
  end.

(** cache_sync(), src/data.cpp:1200-1237, of two root values of equal type (else
    it throws).  Returns what happened and the cells of the cache and of the
    delta at that point.  The code of both cells is that of the delta's. *)
Fixpoint cache_sync (fuel : nat) (fp : fpu) (same : list fdesc -> list fdesc -> bool)
         (cache delta : list cell) : rstat * list cell * list cell :=
  match cache, delta with
  | (cm, cs) :: cache', (dm, ds) :: delta' =>
      let from := if dm then ds else cs in
      let copied :=
        match ds with
        | SNull => CV None
        | SSel _ =>
            match from with
            | SSel (Some (i, v)) =>
                match clone fuel fp same v with
                | (ROk, Some v') => CV (Some (SSel (Some (i, v'))))
                | (r, _) => CFail r
                end
            | SSel None => CV (Some (SSel None))
            | _ => CFail RUB
            end
        | _ => CV (Some from)
        end in
      match copied with
      | CFail r => (r, cache, delta)
      | CV o =>
          let '(r, cache2, delta2) := cache_sync fuel fp same cache' delta' in
          let cs' := match o with Some s => if dm then s else cs | None => cs end in
          let ds' := match o with Some s => if dm then ds else s | None => ds end in
          (r, (cm, cs') :: cache2, (dm, ds') :: delta2)
      end
  | _, _ => (ROk, cache, delta)
  end.
