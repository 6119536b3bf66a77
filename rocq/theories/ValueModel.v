(** Model of Value storage (src/dataimpl.h, src/data.cpp) and of the codec of
    values (src/dataencode.cpp).

    Simplifications.  A Value is a tree: sharing between Values (shared_ptr to
    one storage) is not modelled.  Floating point numbers are their bit
    patterns, a Float32 field holding the 32 bit pattern (in memory it is
    widened to double; copyIn() has rounded it to float already,
    src/data.cpp:545-547).  Memory allocation does not fail.

    No proofs in this file. *)
From Coq Require Import ZArith List Bool.
From Verif Require Import Base WireModel SegModel SegProofs BitMaskModel BitMaskProofs TypeModel TypeSpec TypeProofs.
Import ListNotations.
Local Open Scope Z_scope.

(** ** Storage *)

(** FieldStorage::store with FieldStorage::code, src/dataimpl.h:123-150: one
    constructor per StoreType, and per element type for Array.
    [SSel (Some (i, v))]: in a Union, [v] points to element [i] of the member
    vector; in an Any, [i] is 0 and meaningless.
    [SArr]: a shared_array<const void> with its original_type(). *)
Inductive arr (V : Type) :=
| ANull
| APod (t : Z) (l : list Z)
| AStr (l : list str)
| AVals (l : list (option V)).
Arguments ANull {V}.
Arguments APod {V} t l.
Arguments AStr {V} l.
Arguments AVals {V} l.
Inductive sto (V : Type) :=
| SNull
| SReal (bits : Z)
| SInt (z : Z)
| SUInt (z : Z)
| SBool (b : bool)
| SStr (s : str)
| SSel (o : option (nat * V))
| SArr (a : arr V).
Arguments SNull {V}.
Arguments SReal {V} bits.
Arguments SInt {V} z.
Arguments SUInt {V} z.
Arguments SBool {V} b.
Arguments SStr {V} s.
Arguments SSel {V} o.
Arguments SArr {V} a.

(** A non-empty Value: the description nodes of its type and the storage cells
    of its StructTop, src/dataimpl.h:152-170; a cell is (valid, store). *)
Inductive value := Val (nodes : list fdesc) (cells : list (bool * sto value)).
Definition cell := (bool * sto value)%type.
Definition v_nodes (v : value) : list fdesc := let 'Val n _ := v in n.
Definition v_cells (v : value) : list cell := let 'Val _ c := v in c.

(** The nodes reachable from &members[i] of a Union: the node and, if it is a
    Struct, its descendants.  (The C++ pointer also sees the following members,
    which are never accessed through it.) *)
Definition sub_desc (i : nat) (members : list fdesc) : list fdesc :=
  firstn (f_size (hd (fd_new tc_Null) (skipn i members))) (skipn i members).

(** TypeCode::storedAs(), src/type.cpp:73-98, and FieldStorage::init(),
    src/data.cpp:1242-1268.  None = throws. *)
Definition sto_init (code : Z) : option (sto value) :=
  if tc_isarray code then Some (SArr ANull)
  else if code =? tc_Struct then Some SNull
  else if code =? tc_String then Some (SStr [])
  else if code =? tc_Bool then Some (SBool false)
  else if tc_kind code =? 0x40 then Some (SReal 0)
  else if tc_kind code =? 0x20 then
    Some (if Z.land code 0x04 =? 0 then SInt 0 else SUInt 0)
  else if tc_compound code then Some (SSel None)
  else None.

(** What a C++ function did: returned, threw, or had undefined behaviour;
    DFuel is an artefact of the model (recursion depth). *)
Inductive dres (A : Type) := DOK (a : A) | DThrow | DUB | DFuel.
Arguments DOK {A} a.
Arguments DThrow {A}.
Arguments DUB {A}.
Arguments DFuel {A}.

Fixpoint cell_set {A} (i : nat) (v : A) (l : list A) : list A :=
  match l, i with
  | [], _ => []
  | _ :: l', O => v :: l'
  | x :: l', S i' => x :: cell_set i' v l'
  end.

(** the loop over mlookup in Value(FieldDesc), src/data.cpp:110-116; members.at()
    throws, a node index out of range is UB *)
Fixpoint new_members (lk : list (str * nat)) (nodes : list fdesc) (cells : list cell) : dres (list cell) :=
  match lk with
  | [] => DOK cells
  | (_, i) :: lk' =>
      if (i <? length cells)%nat then
        match nth_error nodes i with
        | None => DUB
        | Some d =>
            match sto_init (f_code d) with
            | None => DThrow
            | Some s => new_members lk' nodes (cell_set i (false, s) cells)
            end
        end
      else DThrow
  end.
(** Value::Value(desc), src/data.cpp:96-123; StructTop has desc->size() members,
    FieldStorage() is (Null, not valid) *)
Definition value_new (nodes : list fdesc) : dres value :=
  match nodes with
  | [] => DUB
  | d :: _ =>
      match sto_init (f_code d) with
      | None => DThrow
      | Some s =>
          let cells := cell_set 0 (false, s) (repeat (false, SNull) (f_size d)) in
          if f_code d =? tc_Struct then
            match new_members (f_lookup d) nodes cells with
            | DOK cells' => DOK (Val nodes cells')
            | DThrow => DThrow
            | DUB => DUB
            | DFuel => DFuel
            end
          else DOK (Val nodes cells)
      end
  end.

(** ** Encoding *)

(** element width of the arrays of fixed width elements, src/dataencode.cpp:322-356 *)
Definition pod_width (code : Z) : option nat :=
  if (code =? tc_BoolA) || (code =? tc_arrayOf tc_Int8) || (code =? tc_arrayOf tc_UInt8) then Some 1%nat
  else if (code =? tc_arrayOf tc_Int16) || (code =? tc_arrayOf tc_UInt16) then Some 2%nat
  else if (code =? tc_arrayOf tc_Int32) || (code =? tc_arrayOf tc_UInt32) || (code =? tc_arrayOf tc_Float32) then Some 4%nat
  else if (code =? tc_arrayOf tc_Int64) || (code =? tc_arrayOf tc_UInt64) || (code =? tc_arrayOf tc_Float64) then Some 8%nat
  else None.
Definition pod_signed (code : Z) : bool :=
  (code =? tc_arrayOf tc_Int8) || (code =? tc_arrayOf tc_Int16)
  || (code =? tc_arrayOf tc_Int32) || (code =? tc_arrayOf tc_Int64).

(** fuel for the type encoder: more than the nesting of the description *)
Fixpoint fd_weight (d : fdesc) : nat :=
  match d with FD _ _ _ _ ms _ => (2 + fold_right (fun x acc => fd_weight x + acc) 0 ms)%nat end.
Definition nodes_weight (nodes : list fdesc) : nat :=
  fold_right (fun x acc => (fd_weight x + acc)%nat) 0%nat nodes.
Definition to_wire_nodes (host : bool) (nodes : list fdesc) (w : wbuf) : outcome wbuf :=
  match to_wire_desc (nodes_weight nodes) host nodes w with Some w' => OK w' | None => Aborts end.

(** position of the pair with member index [i], src/dataencode.cpp:293-298 *)
Fixpoint miter_pos (i : nat) (l : list (str * nat)) : nat :=
  match l with
  | [] => 0
  | (_, k) :: l' => if Nat.eqb k i then 0 else S (miter_pos i l')
  end.

Definition obind {A B} (o : outcome A) (f : A -> outcome B) : outcome B :=
  match o with OK a => f a | Throws => Throws | Aborts => Aborts end.

(** the element loops of StructA / UnionA / AnyA, src/dataencode.cpp:357-398 *)
Definition enc_vals (host : bool) (elem : value -> wbuf -> outcome wbuf) :=
  fix go (l : list (option value)) (w : wbuf) : outcome wbuf :=
  match l with
  | [] => OK w
  | None :: l' => go l' (to_wire_u host 1 0 w)
  | Some v :: l' => obind (elem v (to_wire_u host 1 1 w)) (go l')
  end.
Definition first_node (nodes : list fdesc) : fdesc := hd (fd_new tc_Null) nodes.

(** to_wire_field() of a node which is not a Struct, src/dataencode.cpp:231-404.
    [full] is to_wire_full().
    The assert that an element of a Struct array has the element type (:369)
    compares addresses and is left out: [value_ok] in ValueSpec.v demands it of
    the values for which theorems are stated.  castTo() throws
    on a wrong element type unless the array is untyped
    (src/pvxs/sharedArray.h castTo). *)
Definition enc_node (full : value -> wbuf -> outcome wbuf) (host : bool) (d : fdesc) (s : sto value) (w : wbuf)
  : outcome wbuf :=
  let c := f_code d in
  match s with
  | SNull => Aborts
  | SReal x =>
      if c =? tc_Float32 then OK (to_wire_u host 4 x w)
      else if c =? tc_Float64 then OK (to_wire_u host 8 x w)
      else Aborts
  | SInt x =>
      if c =? tc_Int8 then OK (to_wire_u host 1 x w)
      else if c =? tc_Int16 then OK (to_wire_u host 2 x w)
      else if c =? tc_Int32 then OK (to_wire_u host 4 x w)
      else if c =? tc_Int64 then OK (to_wire_u host 8 x w)
      else Aborts
  | SUInt x =>
      if c =? tc_UInt8 then OK (to_wire_u host 1 x w)
      else if c =? tc_UInt16 then OK (to_wire_u host 2 x w)
      else if c =? tc_UInt32 then OK (to_wire_u host 4 x w)
      else if c =? tc_UInt64 then OK (to_wire_u host 8 x w)
      else Aborts
  | SBool x => if c =? tc_Bool then OK (to_wire_u host 1 (if x then 1 else 0) w) else Aborts
  | SStr x => if c =? tc_String then OK (to_wire_str host x w) else Aborts
  | SSel o =>
      if c =? tc_Union then
        match o with
        | None => OK (to_wire_sel host (-1) w)
        | Some (i, v) =>
            let index := miter_pos i (f_iter d) in
            if (length (f_iter d) <=? index)%nat then Throws
            else full v (to_wire_sel host (Z.of_nat index) w)
        end
      else if c =? tc_Any then
        match o with
        | None => OK (to_wire_u host 1 0xff w)
        | Some (_, v) => obind (to_wire_nodes host (v_nodes v) w) (full v)
        end
      else Aborts
  | SArr a =>
      match pod_width c with
      | Some n =>
          match a with
          | ANull => OK (to_wire_pod host n [] w)
          | APod t l => if t =? c then OK (to_wire_pod host n l w) else Throws
          | _ => Throws
          end
      | None =>
          if c =? tc_StringA then
            match a with
            | ANull => OK (to_wire_stra host [] w)
            | AStr l => OK (to_wire_stra host l w)
            | _ => Throws
            end
          else if (c =? tc_StructA) || (c =? tc_UnionA) || (c =? tc_AnyA) then
            match a with
            | ANull => OK (to_wire_size host 0 w)
            | AVals l =>
                enc_vals host
                  (fun v w =>
                     if c =? tc_AnyA then obind (to_wire_nodes host (v_nodes v) w) (full v)
                     else full v w)
                  l (to_wire_size host (zlen l) w)
            | _ => Throws
            end
          else Aborts
      end
  end.

(** the loop over a Struct, src/dataencode.cpp:220-227: [n] nodes *)
Definition enc_nodes (full : value -> wbuf -> outcome wbuf) (host : bool) :=
  fix go (cells : list (bool * sto value)) (nodes : list fdesc) (n : nat) (w : wbuf) : outcome wbuf :=
  match n with
  | O => OK w
  | S n' =>
      match cells, nodes with
      | (_, s) :: cells', d :: nodes' =>
          if f_code d =? tc_Struct then go cells' nodes' n' w
          else obind (enc_node full host d s w) (go cells' nodes' n')
      | _, _ => Aborts
      end
  end.
(** to_wire_field(), src/dataencode.cpp:213-409, on a node and what follows it *)
Definition enc_field (full : value -> wbuf -> outcome wbuf) (host : bool)
  (cells : list (bool * sto value)) (nodes : list fdesc) (w : wbuf) : outcome wbuf :=
  match cells, nodes with
  | (_, s) :: _, d :: _ =>
      match s with
      | SNull => if f_code d =? tc_Struct then enc_nodes full host cells nodes (f_size d) w else Aborts
      | _ => enc_node full host d s w
      end
  | _, _ => Aborts
  end.
(** to_wire_full(), src/dataencode.cpp:411-416 *)
Fixpoint to_wire_full (host : bool) (v : value) (w : wbuf) {struct v} : outcome wbuf :=
  match v with
  | Val nodes cells => enc_field (to_wire_full host) host cells nodes w
  end.

(** to_wire_valid(), src/dataencode.cpp:418-448.  The walk which selects the
    bits to send; None = UB *)
Fixpoint valid_walk (fuel : nat) (bit : nat) (nodes : list fdesc) (cells : list cell)
  (mask : option bmask) (out : bmask) : option bmask :=
  match fuel with
  | O => None
  | S f =>
      if (f_size (first_node nodes) <=? bit)%nat then Some out
      else match nth_error cells bit, nth_error nodes bit with
      | Some (vl, _), Some d =>
          let sel := match mask with
                     | None => Some true
                     | Some m => bm_get m (Z.of_nat bit)
                     end in
          match (if vl then sel else Some false) with
          | None => None
          | Some true =>
              match bm_set out (Z.of_nat bit) true with
              | None => None
              | Some out' => valid_walk f (bit + f_size d) nodes cells mask out'
              end
          | Some false => valid_walk f (S bit) nodes cells mask out
          end
      | _, _ => None
      end
  end.
Fixpoint enc_bits (host : bool) (bits : list Z) (nodes : list fdesc) (cells : list cell) (w : wbuf) : outcome wbuf :=
  match bits with
  | [] => OK w
  | b :: bits' =>
      obind (enc_field (to_wire_full host) host (skipn (Z.to_nat b) cells) (skipn (Z.to_nat b) nodes) w)
            (enc_bits host bits' nodes cells)
  end.
Definition to_wire_valid (host : bool) (v : value) (mask : option bmask) (w : wbuf) : outcome wbuf :=
  let nodes := v_nodes v in
  let cells := v_cells v in
  let n := f_size (first_node nodes) in
  if negb (f_code (first_node nodes) =? tc_Struct)
     || match mask with None => false | Some m => negb (bm_size m =? Z.of_nat n) end
  then Aborts
  else match valid_walk (S n) 0 nodes cells mask (bm_resize (Z.of_nat n) bm_empty) with
  | None => Aborts
  | Some valid =>
      match only_set n valid with
      | None => Aborts
      | Some bits => enc_bits host bits nodes cells (to_wire_mask host valid w)
      end
  end.

(** ** Decoding, as programs over the Buffer interface (SegModel.v): the
    primitives p_u, p_s, p_size, p_sel, p_str, p_pod, p_stra, p_mask and p_desc
    are proved equal to from_wire() of the respective type. *)
Definition pfault {A} (a : A) : rprog (dres A) := PFault (PRet (DOK a)).
Definition pok {A} (a : A) : rprog (dres A) := PRet (DOK a).
Definition dbind {A B} (p : rprog (dres A)) (f : A -> rprog (dres B)) : rprog (dres B) :=
  pbind p (fun r => match r with
                    | DOK a => f a
                    | DThrow => PRet DThrow
                    | DUB => PRet DUB
                    | DFuel => PRet DFuel
                    end).

Definition nodedec := fdesc -> sto value -> tstore -> rprog (dres (sto value * tstore)).

(** the loop over a Struct, src/dataencode.cpp:458-466 *)
Fixpoint dec_nodes (node : nodedec) (n : nat) (nodes : list fdesc) (cells : list cell) (ts : tstore)
  : rprog (dres (list cell * tstore)) :=
  match n with
  | O => pok (cells, ts)
  | S n' =>
      match nodes, cells with
      | d :: nodes', (vl, s) :: cells' =>
          if f_code d =? tc_Struct then
            dbind (dec_nodes node n' nodes' cells' ts) (fun r => pok ((vl, s) :: fst r, snd r))
          else
            dbind (node d s ts) (fun r =>
            dbind (dec_nodes node n' nodes' cells' (snd r)) (fun r' => pok ((true, fst r) :: fst r', snd r')))
      | _, _ => PRet DUB
      end
  end.
(** from_wire_field(), src/dataencode.cpp:450-690, on a node and what follows it;
    also from_wire_full() (:692-697) *)
Definition dec_field (node : nodedec) (nodes : list fdesc) (cells : list cell) (ts : tstore)
  : rprog (dres (list cell * tstore)) :=
  match nodes, cells with
  | d :: _, (vl, s) :: rest =>
      match s with
      | SNull => if f_code d =? tc_Struct then dec_nodes node (f_size d) nodes cells ts
                 else pfault (cells, ts)
      | _ => dbind (node d s ts) (fun r => pok ((vl, fst r) :: rest, snd r))
      end
  | _, _ => PRet DUB
  end.
(** Value::Helper::build(type) followed by from_wire_full() *)
Definition dec_new (node : nodedec) (nodes : list fdesc) (ts : tstore) : rprog (dres (value * tstore)) :=
  match value_new nodes with
  | DOK v => dbind (dec_field node (v_nodes v) (v_cells v) ts) (fun r => pok (Val nodes (fst r), snd r))
  | DThrow => PRet DThrow
  | DUB => PRet DUB
  | DFuel => PRet DFuel
  end.

(** the element loops; an element decoder gives None to return early *)
Fixpoint dec_elems (n : nat) (elem : tstore -> rprog (dres (option (option value) * tstore))) (ts : tstore)
  : rprog (dres (option (list (option value)) * tstore)) :=
  match n with
  | O => pok (Some [], ts)
  | S n' =>
      dbind (elem ts) (fun r =>
      match fst r with
      | None => pok (None, snd r)
      | Some o =>
          dbind (dec_elems n' elem (snd r)) (fun r' =>
          pok (match fst r' with None => None | Some l => Some (o :: l) end, snd r'))
      end)
  end.

(** the body of case Any, src/dataencode.cpp:545-563, and of an AnyA element
    (:655-668): None = not good, Some None = no type *)
Definition dec_any (node : nodedec) (host : bool) (ts : tstore) : rprog (dres (option (option value) * tstore)) :=
  pbind (p_desc 21 host ts) (fun r =>
  PGood (fun g =>
  if negb g then pok (None, snd r)
  else if is_nil (fst r) then pok (Some None, snd r)
  else dbind (dec_new node (fst r) (snd r)) (fun r' => pok (Some (Some (fst r')), snd r')))).

(** from_wire_field() of a node which is not a Struct, src/dataencode.cpp:470-688 *)
Definition dec_node_step (node : nodedec) (host : bool) (d : fdesc) (s : sto value) (ts : tstore)
  : rprog (dres (sto value * tstore)) :=
  let c := f_code d in
  let ret s' := pok (s', ts) in
  match s with
  | SNull => pfault (s, ts)
  | SReal _ =>
      if c =? tc_Float32 then pbind (p_u host 4 0) (fun x => ret (SReal x))
      else if c =? tc_Float64 then pbind (p_u host 8 0) (fun x => ret (SReal x))
      else pfault (s, ts)
  | SInt _ =>
      if c =? tc_Int8 then pbind (p_s host 1 0) (fun x => ret (SInt x))
      else if c =? tc_Int16 then pbind (p_s host 2 0) (fun x => ret (SInt x))
      else if c =? tc_Int32 then pbind (p_s host 4 0) (fun x => ret (SInt x))
      else if c =? tc_Int64 then pbind (p_s host 8 0) (fun x => ret (SInt x))
      else pfault (s, ts)
  | SUInt _ =>
      if c =? tc_UInt8 then pbind (p_u host 1 0) (fun x => ret (SUInt x))
      else if c =? tc_UInt16 then pbind (p_u host 2 0) (fun x => ret (SUInt x))
      else if c =? tc_UInt32 then pbind (p_u host 4 0) (fun x => ret (SUInt x))
      else if c =? tc_UInt64 then pbind (p_u host 8 0) (fun x => ret (SUInt x))
      else pfault (s, ts)
  | SBool _ =>
      if c =? tc_Bool then pbind (p_u host 1 0) (fun x => ret (SBool (negb (x =? 0))))
      else pfault (s, ts)
  | SStr old =>
      if c =? tc_String then pbind (p_str host old) (fun x => ret (SStr x))
      else pfault (s, ts)
  | SSel _ =>
      if c =? tc_Union then
        pbind (p_sel host (-1)) (fun sel =>
        if sel <? 0 then ret (SSel None)
        else match nth_error (f_iter d) (Z.to_nat sel) with
             | None => pfault (s, ts)
             | Some (_, i) =>
                 dbind (dec_new node (sub_desc i (f_members d)) ts)
                       (fun r => pok (SSel (Some (i, fst r)), snd r))
             end)
      else if c =? tc_Any then
        dbind (dec_any node host ts) (fun r =>
        match fst r with
        | None => pok (s, snd r)
        | Some o => pok (SSel (match o with None => None | Some v => Some (O, v) end), snd r)
        end)
      else pfault (s, ts)
  | SArr _ =>
      match pod_width c with
      | Some n => pbind (p_pod host n) (fun l => ret (SArr (APod c (if pod_signed c then map (s_cast n) l else l))))
      | None =>
          if c =? tc_StringA then pbind (p_stra host) (fun l => ret (SArr (AStr l)))
          else if c =? tc_StructA then
            pbind (p_size host 0 false) (fun alen =>
            dbind (dec_elems (Z.to_nat alen) (fun ts =>
                     pbind (p_u host 1 0) (fun flag =>
                     if flag =? 0 then pok (Some None, ts)
                     else dbind (dec_new node (sub_desc 0 (f_members d)) ts)
                            (fun r => pok (Some (Some (fst r)), snd r)))) ts) (fun r =>
            match fst r with
            | None => pok (s, snd r)
            | Some l => pok (SArr (AVals l), snd r)
            end))
          else if c =? tc_UnionA then
            let cdesc := first_node (f_members d) in
            pbind (p_size host 0 false) (fun alen =>
            dbind (dec_elems (Z.to_nat alen) (fun ts =>
                     pbind (p_u host 1 0) (fun flag =>
                     if flag =? 0 then pok (Some None, ts)
                     else
                       pbind (p_sel host (-1)) (fun sel =>
                       if sel <? 0 then pok (Some None, ts)
                       else match nth_error (f_iter cdesc) (Z.to_nat sel) with
                            | None => pfault (None, ts)
                            | Some (_, i) =>
                                dbind (dec_new node (sub_desc i (f_members cdesc)) ts)
                                      (fun r => pok (Some (Some (fst r)), snd r))
                            end))) ts) (fun r =>
            match fst r with
            | None => pok (s, snd r)
            | Some l => pok (SArr (AVals l), snd r)
            end))
          else if c =? tc_AnyA then
            pbind (p_size host 0 false) (fun alen =>
            dbind (dec_elems (Z.to_nat alen) (fun ts =>
                     pbind (p_u host 1 0) (fun flag =>
                     if flag =? 0 then pok (Some None, ts)
                     else dec_any node host ts)) ts) (fun r =>
            match fst r with
            | None => pok (s, snd r)
            | Some l => pok (SArr (AVals l), snd r)
            end))
          else pfault (s, ts)
      end
  end.
Fixpoint dec_node (fuel : nat) (host : bool) : nodedec :=
  match fuel with
  | O => fun _ _ _ => PRet DFuel
  | S f => dec_node_step (dec_node f host) host
  end.

(** from_wire_full(), src/dataencode.cpp:692-697 *)
Definition from_wire_full (fuel : nat) (host : bool) (v : value) (ts : tstore) : rprog (dres (value * tstore)) :=
  dbind (dec_field (dec_node fuel host) (v_nodes v) (v_cells v) ts)
        (fun r => pok (Val (v_nodes v) (fst r), snd r)).

(** the loop of from_wire_valid(), src/dataencode.cpp:717-726.  The first
    findSet() result is [bit]. *)
Fixpoint dec_bits (n : nat) (node : nodedec) (m : bmask) (bit : Z) (nodes : list fdesc) (cells : list cell)
  (ts : tstore) : rprog (dres (list cell * tstore)) :=
  if Z.of_nat (f_size (first_node nodes)) <=? bit then pok (cells, ts)
  else match n with
  | O => PRet DFuel
  | S n' =>
      let i := Z.to_nat bit in
      dbind (dec_field node (skipn i nodes) (skipn i cells) ts) (fun r =>
      let cells' := firstn i cells ++ match fst r with (_, s) :: l => (true, s) :: l | [] => [] end in
      match find_set m (bit + Z.of_nat (f_size (first_node (skipn i nodes)))) with
      | None => PRet DUB
      | Some bit' => dec_bits n' node m bit' nodes cells' (snd r)
      end)
  end.
(** from_wire_valid(), src/dataencode.cpp:699-727, on a whole Value *)
Definition from_wire_valid (fuel : nat) (host : bool) (v : value) (ts : tstore) : rprog (dres (value * tstore)) :=
  pbind (p_mask host bm_empty) (fun m0 =>
  let m := bm_resize (Z.of_nat (length (v_cells v))) m0 in
  PGood (fun g =>
  if negb g then pok (v, ts)
  else match find_set m 0 with
  | None => PRet DUB
  | Some bit =>
      dbind (dec_bits (length (v_cells v)) (dec_node fuel host) m bit (v_nodes v) (v_cells v) ts)
            (fun r => pok (Val (v_nodes v) (fst r), snd r))
  end)).

(** from_wire_type(), src/dataencode.cpp:729-745; None = the Value is left as it
    was (buffer not good), Some None = empty Value *)
Definition from_wire_type (host : bool) (ts : tstore) : rprog (dres (option (option value) * tstore)) :=
  pbind (p_desc 21 host ts) (fun r =>
  PGood (fun g =>
  if negb g then pok (None, snd r)
  else if is_nil (fst r) then pok (Some None, snd r)
  else match value_new (fst r) with
       | DOK v => pok (Some (Some v), snd r)
       | DThrow => PRet DThrow
       | DUB => PRet DUB
       | DFuel => PRet DFuel
       end)).
(** from_wire_type_value(), src/dataencode.cpp:747-753 *)
Definition from_wire_type_value (fuel : nat) (host : bool) (ts : tstore)
  : rprog (dres (option (option value) * tstore)) :=
  dbind (from_wire_type host ts) (fun r =>
  match fst r with
  | Some (Some v) =>
      PGood (fun g =>
      if negb g then pok r
      else dbind (from_wire_full fuel host v (snd r)) (fun r' => pok (Some (Some (fst r')), snd r')))
  | _ => pok r
  end).
