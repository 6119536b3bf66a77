(** Model of shared_array<>: src/pvxs/sharedArray.h, with allocArray() and the
    element conversions of src/sharedarray.cpp.

    Only definitions.  A program is a history of operations on variables of the
    types shared_array<E>, shared_array<const E>, shared_array<void> and
    shared_array<const void>.  Memory obtained with new[] is a buffer, never
    given back in the model: what nothing refers to cannot be seen.

    Not modelled: raw pointers kept by the user (data(), iterators), the
    constructors which take memory of the user's, castToUnsafe(), printing.
    Operations follow one another; an operation on a variable of one thread is
    one step, and the use count is read as if all its changes were seen. *)

From Coq Require Import ZArith Bool String List.
From Verif Require Import Base WireModel TypeModel TextModel ValueModel CopyModel.
Import ListNotations.
Open Scope Z_scope.

(** ** Elements *)

(** ArrayType, src/pvxs/sharedArray.h:27-43: the codes of the arrays of
    TypeCode; Value is 0x88, and Null 0xff. *)
Definition at_Null : Z := 0xff.
Definition at_Value : Z := tc_StructA.
Definition at_String : Z := tc_StringA.
(** the numeric ones *)
Definition pod_type (t : Z) : bool :=
  existsb (Z.eqb t) [0x08; 0x28; 0x29; 0x2a; 0x2b; 0x2c; 0x2d; 0x2e; 0x2f; 0x4a; 0x4b].
(** the types of elements, CaptureCode<>, src/pvxs/sharedArray.h:61-75 *)
Definition elem_type (t : Z) : bool := pod_type t || (t =? at_String) || (t =? at_Value).

(** A number (bits, for floating point), a string, a Value (which is itself a
    reference: a name for it), or a number never written *)
Inductive elem := EPod (z : Z) | EStr (s : str) | EVal (r : nat) | EJunk.
Definition fits (t : Z) (e : elem) : bool :=
  match e with
  | EPod _ | EJunk => pod_type t
  | EStr _ => t =? at_String
  | EVal _ => t =? at_Value
  end.
(** an element of new E[n]: numbers have no value, std::string() and Value()
    do; the name 0 is the empty Value *)
Definition fresh (t : Z) : elem :=
  if t =? at_String then EStr [] else if t =? at_Value then EVal 0%nat else EJunk.

(** ** Variables *)

(** sa_base and shared_array, src/pvxs/sharedArray.h:96-101 and :540-550.
    [h_const], [h_void] and, when not void, [h_type] are the C++ type of the
    variable; [h_type] of a void variable is its _type.  [h_ptr]: _data, a
    buffer and a position in it. *)
Record handle := Hd { h_const : bool; h_void : bool; h_type : Z; h_ptr : option (nat * nat); h_count : nat }.
Record state := St { bufs : list (Z * list elem); vars : list (option handle) }.

(** what an operation gives: nothing, a new variable, an element, an exception
    (std::logic_error, std::out_of_range, NoConvert or another error of a
    conversion); undefined behaviour; or it does not compile *)
Inductive thrown := XLogic | XRange | XConv (r : rstat).
Inductive result := Done | Made (v : nat) | Elem (e : elem) | Thrown (x : thrown) | Undefined | Refused.

Definition var (s : state) (v : nat) : option handle :=
  match nth_error (vars s) v with Some (Some h) => Some h | _ => None end.
Fixpoint upd {A} (l : list A) (i : nat) (x : A) : list A :=
  match l, i with
  | [], _ => []
  | _ :: l', O => x :: l'
  | y :: l', S i' => y :: upd l' i' x
  end.
Definition set (s : state) (v : nat) (h : option handle) : state := St (bufs s) (upd (vars s) v h).
Definition bind (s : state) (h : handle) : state * result :=
  (St (bufs s) (vars s ++ [Some h]), Made (length (vars s))).
(** new E[] with those elements *)
Definition alloc (s : state) (t : Z) (l : list elem) : state := St (bufs s ++ [(t, l)]) (vars s).
Definition next (s : state) : nat := length (bufs s).

Definition points (b : nat) (o : option handle) : bool :=
  match o with
  | Some h => match h_ptr h with Some (b', _) => Nat.eqb b b' | None => false end
  | None => false
  end.
(** shared_ptr::use_count() *)
Definition use_count (s : state) (b : nat) : nat := length (filter (points b) (vars s)).
(** sa_base::unique(), src/pvxs/sharedArray.h:170 *)
Definition unique (s : state) (h : handle) : bool :=
  match h_ptr h with None => true | Some (b, _) => Nat.leb (use_count s b) 1 end.
Definition memory (s : state) (b : nat) : list elem := snd (nth b (bufs s) (0, [])).
(** the elements begin() .. end() *)
Definition elems (s : state) (h : handle) : list elem :=
  match h_ptr h with None => [] | Some (b, o) => firstn (h_count h) (skipn o (memory s b)) end.
(** sa_base::clear(), :156-159; a void array also becomes untyped, :616-619.
    What a move leaves behind is the same, :119-123 and :564-569. *)
Definition emptied (h : handle) : handle :=
  Hd (h_const h) (h_void h) (if h_void h then at_Null else h_type h) None 0%nat.
(** the same C++ type *)
Definition same_type (a b : handle) : bool :=
  Bool.eqb (h_const a) (h_const b) && Bool.eqb (h_void a) (h_void b) && (h_void a || (h_type a =? h_type b)).

(** ** Operations *)

Section Step.
  Variable fp : fpu.

  (** One element of convertArr(), src/sharedarray.cpp:235-468.  memcpy and the
      copy of strings for the same type; nothing from or to Value or Null.
      Converting a number never written is undefined. *)
  Definition conv_elem (st dt : Z) (e : elem) : cv elem :=
    let lift {A} (f : A -> elem) (r : cv A) := match r with CV x => CV (f x) | CFail x => CFail x end in
    if negb (pod_type st || (st =? at_String)) || negb (pod_type dt || (dt =? at_String)) then CFail RNoConvert
    else if st =? dt then CV e
    else match e with
         | EPod z =>
             if dt =? at_String then lift EStr (num_text fp (tc_scalarOf st) z)
             else lift EPod (conv_num fp (tc_scalarOf st) (tc_scalarOf dt) z)
         | EStr x => lift EPod (text_num fp (tc_scalarOf dt) x)
         | _ => CFail RUB
         end.
  (** convertArr(): no test of the types when there are no elements, :240-241 *)
  Definition convert_arr (st dt : Z) (l : list elem) : cv (list elem) := map_cv (conv_elem st dt) l.

  Inductive op :=
  | Build (c : bool) (t : Z) (l : list elem)
  | Empty (c vd : bool) (t : Z)
  | Alloc (t : Z) (n : nat)
  | Copy (v : nat)
  | Move (v : nat)
  | Assign (d v : nat)
  | MoveAssign (d v : nat)
  | Clear (v : nat)
  | Drop (v : nat)
  | Swap (v w : nat)
  | Slice (v off n : nat)
  | Write (v i : nat) (e : elem)
  | Resize (v n : nat)
  | MakeUnique (v : nat)
  | Freeze (v : nat)
  | Thaw (v : nat)
  | CastVoid (v : nat)
  | CastTo (t : Z) (v : nat)
  | ConvertTo (t : Z) (v : nat)
  | At (v i : nat).

  (** shared_array(size_t), an initializer list, a size and a value, or two
      iterators: new E[], :263-294.  A size alone leaves [fresh] elements. *)
  Definition build (s : state) (c : bool) (t : Z) (l : list elem) : state * result :=
    if elem_type t && forallb (fits t) l
    then bind (alloc s t l) (Hd c false t (Some (next s, 0%nat)) (length l))
    else (s, Refused).
  (** shared_array(), :260 and :558; shared_array(ArrayType), :560 *)
  Definition empty (s : state) (c vd : bool) (t : Z) : state * result :=
    if vd || elem_type t then bind s (Hd c vd t None 0%nat) else (s, Refused).
  (** allocArray(), src/sharedarray.cpp:67-90 *)
  Definition alloc_array (s : state) (t : Z) (n : nat) : state * result :=
    if elem_type t then bind (alloc s t (repeat (fresh t) n)) (Hd false true t (Some (next s, 0%nat)) n)
    else (s, Thrown XLogic).
  (** the move constructors, :119-123 and :564-569 *)
  Definition move (s : state) (v : nat) (h : handle) : state * result := bind (set s v (Some (emptied h))) h.
  (** operator=, :124 and :571 *)
  Definition assign (s : state) (d : nat) (hd h : handle) : state * result :=
    if same_type hd h then (set s d (Some h), Done) else (s, Refused).
  (** operator=(&&), :125-131 and :573-579.  Of a variable to itself: _data
      stays, while the count, and the type of a void array, are lost. *)
  Definition move_assign (s : state) (d v : nat) (hd h : handle) : state * result :=
    if same_type hd h then
      if Nat.eqb d v
      then (set s v (Some (Hd (h_const h) (h_void h) (if h_void h then at_Null else h_type h) (h_ptr h) 0%nat)), Done)
      else (set (set s d (Some h)) v (Some (emptied h)), Done)
    else (s, Refused).
  (** swap(), :161-164 and :622-625 *)
  Definition swap (s : state) (v w : nat) (hv hw : handle) : state * result :=
    if same_type hv hw then (set (set s v (Some hw)) w (Some hv), Done) else (s, Refused).
  (** shared_array<E>(a.dataPtr(), a.data()+off, n), :309-313.  The caller
      keeps it inside [a]. *)
  Definition slice (s : state) (h : handle) (off n : nat) : state * result :=
    if h_void h then (s, Refused)
    else if Nat.leb (off + n) (h_count h)
    then bind s (Hd (h_const h) false (h_type h)
                    (match h_ptr h with Some (b, o) => Some (b, (o + off)%nat) | None => None end) n)
    else (s, Undefined).
  (** a[i] = e, :390 *)
  Definition write (s : state) (h : handle) (i : nat) (e : elem) : state * result :=
    if h_void h || h_const h || negb (fits (h_type h) e) then (s, Refused)
    else match h_ptr h with
         | Some (b, o) =>
             if Nat.ltb i (h_count h)
             then (St (upd (bufs s) b (fst (nth b (bufs s) (0, [])), upd (memory s b) (o + i) e)) (vars s), Done)
             else (s, Undefined)
         | None => (s, Undefined)
         end.
  (** resize(), :339-345.  Only for elements which may be changed: the
      temporary's begin() is copied into. *)
  Definition resize (s : state) (v : nat) (h : handle) (n : nat) : state * result :=
    if h_void h || h_const h then (s, Refused)
    else if negb (unique s h) || negb (Nat.eqb n (h_count h))
    then let l := firstn n (elems s h) in
         let s1 := alloc s (h_type h) (l ++ repeat (fresh (h_type h)) (n - length l)) in
         (set s1 v (Some (Hd (h_const h) false (h_type h) (Some (next s, 0%nat)) n)), Done)
    else (s, Done).
  (** freeze(), :405-418 and :631-644 *)
  Definition freeze (s : state) (v : nat) (h : handle) : state * result :=
    if negb (unique s h) then (s, Thrown XLogic)
    else bind (set s v (Some (emptied h))) (Hd true (h_void h) (h_type h) (h_ptr h) (h_count h)).
  (** thaw(), :428-442 and :646-660.  The void variant copies through
      allocArray() and convertArr(). *)
  Definition thaw (s : state) (v : nat) (h : handle) : state * result :=
    if unique s h
    then bind (set s v (Some (emptied h))) (Hd false (h_void h) (h_type h) (h_ptr h) (h_count h))
    else if h_void h then
      if elem_type (h_type h) then
        match convert_arr (h_type h) (h_type h) (elems s h) with
        | CV l => bind (set (alloc s (h_type h) l) v (Some (emptied h)))
                       (Hd false true (h_type h) (Some (next s, 0%nat)) (h_count h))
        | CFail r => (s, Thrown (XConv r))
        end
      else (s, Thrown XLogic)
    else bind (set (alloc s (h_type h) (elems s h)) v (Some (emptied h)))
              (Hd false false (h_type h) (Some (next s, 0%nat)) (h_count h)).
  (** castTo<void>(), :478-482 and :672-676 *)
  Definition cast_void (s : state) (h : handle) : state * result :=
    bind s (Hd (h_const h) true (h_type h) (h_ptr h) (h_count h)).
  (** castTo<E>(), :484-488 and :663-670.  The type is only compared when there
      is memory. *)
  Definition cast_to (s : state) (t : Z) (h : handle) : state * result :=
    if negb (elem_type t) then (s, Refused)
    else if h_void h then
      if (match h_ptr h with Some _ => true | None => false end) && negb (h_type h =? t) then (s, Thrown XLogic)
      else bind s (Hd (h_const h) false t (h_ptr h) (h_count h))
    else if h_type h =? t then bind s h else (s, Refused).
  (** convertTo<E>(), :504-512 and :694-706 *)
  Definition convert_to (s : state) (t : Z) (h : handle) : state * result :=
    if negb (elem_type t) then (s, Refused)
    else if h_void h && (h_type h =? t) then cast_to s t h
    else match convert_arr (h_type h) t (elems s h) with
         | CV l => bind (alloc s t l) (Hd (h_const h) false t (Some (next s, 0%nat)) (h_count h))
         | CFail RUB => (s, Undefined)
         | CFail r => (s, Thrown (XConv r))
         end.
  (** at(), :394-399: compares with >, then reads *)
  Definition at_ (s : state) (h : handle) (i : nat) : state * result :=
    if h_void h then (s, Refused)
    else if Nat.ltb (h_count h) i then (s, Thrown XRange)
    else match h_ptr h with
         | Some (b, o) => match nth_error (memory s b) (o + i) with Some e => (s, Elem e) | None => (s, Undefined) end
         | None => (s, Undefined)
         end.

  (** One operation.  Using a variable which is not there does not compile. *)
  Definition step (s : state) (o : op) : state * result :=
    let on v (k : handle -> state * result) := match var s v with Some h => k h | None => (s, Refused) end in
    match o with
    | Build c t l => build s c t l
    | Empty c vd t => empty s c vd t
    | Alloc t n => alloc_array s t n
    | Copy v => on v (bind s)
    | Move v => on v (move s v)
    | Assign d v => on d (fun hd => on v (assign s d hd))
    | MoveAssign d v => on d (fun hd => on v (move_assign s d v hd))
    | Clear v => on v (fun h => (set s v (Some (emptied h)), Done))
    | Drop v => on v (fun _ => (set s v None, Done))
    | Swap v w => on v (fun hv => on w (swap s v w hv))
    | Slice v off n => on v (fun h => slice s h off n)
    | Write v i e => on v (fun h => write s h i e)
    | Resize v n => on v (fun h => resize s v h n)
    | MakeUnique v => on v (fun h => resize s v h (h_count h)) (* :349-351 *)
    | Freeze v => on v (freeze s v)
    | Thaw v => on v (thaw s v)
    | CastVoid v => on v (cast_void s)
    | CastTo t v => on v (cast_to s t)
    | ConvertTo t v => on v (convert_to s t)
    | At v i => on v (fun h => at_ s h i)
    end.
End Step.
