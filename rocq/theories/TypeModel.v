(** Model of type descriptions: TypeCode (src/pvxs/data.h), Member / TypeDef
    (src/type.cpp), FieldDesc (src/dataimpl.h) and the codec of type
    descriptions (src/dataencode.cpp).

    No proofs in this file. *)
From Coq Require Import ZArith List Bool.
From Verif Require Import Base WireModel.
Import ListNotations.
Local Open Scope Z_scope.

(** ** TypeCode, src/pvxs/data.h:154-221.  A code is a byte. *)
Definition tc_Bool : Z := 0x00.
Definition tc_BoolA : Z := 0x08.
Definition tc_Int8 : Z := 0x20.
Definition tc_Int16 : Z := 0x21.
Definition tc_Int32 : Z := 0x22.
Definition tc_Int64 : Z := 0x23.
Definition tc_UInt8 : Z := 0x24.
Definition tc_UInt16 : Z := 0x25.
Definition tc_UInt32 : Z := 0x26.
Definition tc_UInt64 : Z := 0x27.
Definition tc_Float32 : Z := 0x42.
Definition tc_Float64 : Z := 0x43.
Definition tc_String : Z := 0x60.
Definition tc_StringA : Z := 0x68.
Definition tc_Struct : Z := 0x80.
Definition tc_Union : Z := 0x81.
Definition tc_Any : Z := 0x82.
Definition tc_StructA : Z := 0x88.
Definition tc_UnionA : Z := 0x89.
Definition tc_AnyA : Z := 0x8a.
Definition tc_Null : Z := 0xff.

(** TypeCode::kind(), isarray(), arrayOf(), scalarOf(), src/pvxs/data.h:197-217;
    Kind::Compound is 0x80 (:130-140) *)
Definition tc_scalarOf (c : Z) : Z := Z.land c 0xf7.
Definition tc_arrayOf (c : Z) : Z := Z.lor c 0x08.
Definition tc_isarray (c : Z) : bool := negb (Z.land c 0x08 =? 0).
Definition tc_kind (c : Z) : Z := Z.land c 0xe0.
Definition tc_compound (c : Z) : bool := tc_kind c =? 0x80.

(** the scalar codes of the innermost switch in src/dataencode.cpp:189-203 *)
Definition tc_simple_scalar (c : Z) : bool :=
  existsb (fun k => c =? k)
    [tc_Bool; tc_Int8; tc_Int16; tc_Int32; tc_Int64; tc_UInt8; tc_UInt16; tc_UInt32;
     tc_UInt64; tc_Float32; tc_Float64; tc_String; tc_Any].

(** TypeCode::valid(), src/type.cpp:44-71.  scalarOf(Null) is 0xf7, which is
    none of the cases, so the Null code itself is not valid. *)
Definition tc_valid (c : Z) : bool :=
  if negb (Z.land c 0x10 =? 0) && negb (c =? tc_Null) then false
  else tc_simple_scalar (tc_scalarOf c)
       || (tc_scalarOf c =? tc_Union) || (tc_scalarOf c =? tc_Struct) || (tc_scalarOf c =? tc_Null).

(** ** FieldDesc, src/dataimpl.h:65-94 *)

(** [f_lookup] is the std::map mlookup (strictly sorted by key), [f_iter] the
    vector miter, [f_members] the vector members. *)
Inductive fdesc := FD {
  f_id : str;
  f_lookup : list (str * nat);
  f_iter : list (str * nat);
  f_parent : nat;
  f_members : list fdesc;
  f_code : Z
}.

(** FieldDesc(TypeCode), src/dataimpl.h:87 *)
Definition fd_new (code : Z) : fdesc := FD [] [] [] 0 [] code.

(** FieldDesc::size(), src/dataimpl.h:91 *)
Definition f_size (d : fdesc) : nat :=
  1 + (if is_nil (f_members d) then length (f_lookup d) else 0)%nat.

(** std::map<std::string,...>::operator[] = : replace or insert in order *)
Fixpoint map_set {V} (k : str) (v : V) (m : list (str * V)) : list (str * V) :=
  match m with
  | [] => [(k, v)]
  | (k', v') :: m' =>
      if str_ltb k k' then (k, v) :: m
      else if str_eqb k k' then (k, v) :: m'
      else (k', v') :: map_set k v m'
  end.
(** std::map::find() *)
Fixpoint map_get {V} (k : str) (m : list (str * V)) : option V :=
  match m with
  | [] => None
  | (k', v) :: m' => if str_eqb k k' then Some v else map_get k m'
  end.

Definition set_parent (p : nat) (l : list fdesc) : list fdesc :=
  match l with
  | [] => []
  | d :: l' => FD (f_id d) (f_lookup d) (f_iter d) p (f_members d) (f_code d) :: l'
  end.

(** '.' *)
Definition dot : Z := 46.

(** The body of the child loop of from_wire() (src/dataencode.cpp:166-182) and
    of build_tree() (src/type.cpp:265-279), which are the same up to order.
    [fld] is the parent node, [kids] the nodes after it (Struct) or its member
    vector (Union); [new] the nodes just added for child [name]. *)
Definition attach_child (fld : fdesc) (kids : list fdesc) (name : str) (new : list fdesc)
  : fdesc * list fdesc :=
  let isstruct := f_code fld =? tc_Struct in
  let cidx := ((if isstruct then 1 else 0) + length kids)%nat in
  let cfld := hd (fd_new tc_Null) new in
  let lk1 := map_set name cidx (f_lookup fld) in
  let lk2 :=
    if isstruct && (f_code fld =? f_code cfld)
    then fold_left (fun m p => map_set (name ++ dot :: fst p) (cidx + snd p)%nat m) (f_lookup cfld) lk1
    else lk1 in
  (FD (f_id fld) lk2 (f_iter fld ++ [(name, cidx)]) (f_parent fld) (f_members fld) (f_code fld),
   kids ++ (if isstruct then set_parent cidx new else new)).

(** Nodes of a finished Struct or Union: a Struct is followed by its
    descendants, a Union holds them in its member vector. *)
Definition finish_node (fld : fdesc) (kids : list fdesc) : list fdesc :=
  if f_code fld =? tc_Struct then fld :: kids
  else [FD (f_id fld) (f_lookup fld) (f_iter fld) (f_parent fld) kids (f_code fld)].

(** ** Member, src/pvxs/data.h:255-330 *)
Inductive member := Mem { m_code : Z; m_name : str; m_id : str; m_children : list member }.

(** Member::Helper::build_tree(), src/type.cpp:233-283, without the assert on
    the last line.  Returns the nodes appended. *)
Fixpoint flatten (m : member) : list fdesc :=
  match m with
  | Mem code name id children =>
      let go := fix go (cs : list member) (fld : fdesc) (kids : list fdesc) : fdesc * list fdesc :=
        match cs with
        | [] => (fld, kids)
        | c :: cs' =>
            let '(fld', kids') := attach_child fld kids (m_name c) (flatten c) in
            go cs' fld' kids'
        end in
      let build c := let '(fld, kids) := go children (FD id [] [] 0 [] c) [] in finish_node fld kids in
      if (code =? tc_StructA) || (code =? tc_UnionA)
      then [FD [] [] [] 0 (build (tc_scalarOf code)) code]
      else build code
  end.

(** the assert at src/type.cpp:282, at each level of the recursion; an array of
    Struct / Union is checked when its element is built (:245). *)
Fixpoint build_asserts (m : member) : bool :=
  match m with
  | Mem code name id children =>
      let top := if (code =? tc_StructA) || (code =? tc_UnionA)
                 then f_members (hd (fd_new tc_Null) (flatten m)) else flatten m in
      forallb build_asserts children
      && Nat.eqb (length top) (f_size (hd (fd_new tc_Null) top))
  end.

(** build_tree() with its assert; None = the process aborts. *)
Definition build_tree (m : member) : option (list fdesc) :=
  if build_asserts m then Some (flatten m) else None.

(** name_validate() on std::string::c_str(), src/type.cpp:193-215 *)
Definition name_char (first : bool) (c : Z) : bool :=
  ((48 <=? c) && (c <=? 57) && negb first)
  || ((97 <=? c) && (c <=? 122)) || ((65 <=? c) && (c <=? 90)) || (c =? 95).
Fixpoint name_chars (first : bool) (s : str) : bool :=
  match s with
  | [] => true
  | c :: s' => name_char first c && name_chars false s'
  end.
Definition name_validate (s : str) : bool :=
  let s := c_str s in
  negb (is_nil s) && name_chars true s.

(** node_validate(), src/type.cpp:180-191 *)
Definition sou (c : Z) : bool := (tc_scalarOf c =? tc_Struct) || (tc_scalarOf c =? tc_Union).
Definition node_validate (parent : option Z) (id : str) (code : Z) : bool :=
  (is_nil id || sou code) && tc_valid code
  && match parent with None => true | Some p => sou p end.

(** Member::_validate(), src/type.cpp:217-225.  false = throws *)
Definition member_validate (m : member) : bool :=
  (is_nil (m_name m) || name_validate (m_name m))
  && node_validate None (m_id m) (m_code m)
  && forallb (fun c => node_validate (Some (m_code m)) (m_id c) (m_code c)) (m_children m).

(** Member built through its constructors, src/pvxs/data.h:270-300: every node
    of the tree was validated when it was made. *)
Fixpoint member_built (m : member) : bool :=
  match m with
  | Mem code name id children => member_validate m && forallb member_built children
  end.

(** TypeDef::TypeDef(code, id, children), src/pvxs/data.h:360-380: Member + build_tree;
    None = exception or abort *)
Inductive outcome (A : Type) := OK (a : A) | Throws | Aborts.
Arguments OK {A} a.
Arguments Throws {A}.
Arguments Aborts {A}.
Definition typedef_make (m : member) : outcome (list fdesc) :=
  if negb (member_built m) then Throws
  else match build_tree m with Some l => OK l | None => Aborts end.

(** ** copy_tree(), src/type.cpp:296-315.  [cur] is the node array from [desc]
    on.  None = out of fuel or an index out of range. *)
Fixpoint copy_tree (fuel : nat) (name : str) (cur : list fdesc) : option member :=
  match fuel, cur with
  | S fuel', d :: _ =>
      if (f_code d =? tc_Struct) || (f_code d =? tc_Union) then
        let base := if f_code d =? tc_Struct then cur else f_members d in
        let kids := (fix go (l : list (str * nat)) : option (list member) :=
          match l with
          | [] => Some []
          | (n, i) :: l' =>
              match copy_tree fuel' n (skipn i base), go l' with
              | Some c, Some cs => Some (c :: cs)
              | _, _ => None
              end
          end) (f_iter d) in
        match kids with Some cs => Some (Mem (f_code d) name (f_id d) cs) | None => None end
      else if (f_code d =? tc_StructA) || (f_code d =? tc_UnionA) then
        match copy_tree fuel' name (f_members d) with
        | Some (Mem c n i cs) => Some (Mem (tc_arrayOf c) n i cs)
        | None => None
        end
      else Some (Mem (f_code d) name (f_id d) [])
  | _, _ => None
  end.

(** ** TypeDef::_append(), src/type.cpp:374-397.  None = throws.  The recursion
    is on [adopt]. *)
Fixpoint append_child (adopt : member) (children : list member) {struct adopt} : option (list member) :=
  (fix find (cs : list member) : option (list member) :=
     match cs with
     | [] => Some [adopt]
     | child :: cs' =>
         if str_eqb (m_name child) (m_name adopt) then
           if negb (Bool.eqb (tc_compound (m_code child)) (tc_compound (m_code adopt))) then None
           else
             let id' := if is_nil (m_id adopt) then m_id child else m_id adopt in
             match (fix each (gs : list member) (acc : list member) : option (list member) :=
                      match gs with
                      | [] => Some acc
                      | g :: gs' =>
                          match append_child g acc with
                          | Some acc' => each gs' acc'
                          | None => None
                          end
                      end) (m_children adopt) (m_children child) with
             | Some cs2 => Some (Mem (m_code adopt) (m_name child) id' cs2 :: cs')
             | None => None
             end
         else match find cs' with
              | Some r => Some (child :: r)
              | None => None
              end
     end) children.

(** TypeDef::operator+=, src/pvxs/data.h:390-420 with _append_start (src/type.cpp:358-372)
    and _append_finish (:399-408) *)
Definition typedef_append (top : member) (adopts : list member) : outcome member :=
  if negb (sou (m_code top)) then Throws
  else
    match fold_left (fun acc a => match acc with
                                  | Some cs => append_child a cs
                                  | None => None end) adopts (Some (m_children top)) with
    | None => Throws
    | Some cs =>
        let m := Mem (m_code top) (m_name top) (m_id top) cs in
        match build_tree m with Some _ => OK m | None => Aborts end
    end.

(** ** Value::_equal(), src/data.cpp:325-370 (Value::equalType) on two non-null,
    distinct descriptions.  Result None = undefined behaviour (an iterator past
    the end dereferenced, or an index out of range) or out of fuel. *)
Fixpoint fd_equal (fuel : nat) (a b : list fdesc) : option bool :=
  match fuel with
  | O => None
  | S f =>
      match a, b with
      | da :: _, db :: _ =>
          if negb (Nat.eqb (f_size da) (f_size db)) then Some false
          else
            (fix nodes (n : nat) (a b : list fdesc) : option bool :=
               match n with
               | O => Some true
               | S n' =>
                   match a, b with
                   | x :: a', y :: b' =>
                       if negb (f_code x =? f_code y) then Some false
                       else
                         let here :=
                           if (f_code x =? tc_StructA) || (f_code x =? tc_UnionA)
                           then fd_equal f (f_members x) (f_members y)
                           else if (f_code x =? tc_Struct) || (f_code x =? tc_Union)
                           then (fix maps (l1 l2 : list (str * nat)) : option bool :=
                                   match l1, l2 with
                                   | [], _ => Some true
                                   | _ :: _, [] => None
                                   | (k1, i1) :: l1', (k2, i2) :: l2' =>
                                       if negb (str_eqb k1 k2) then Some false
                                       else if negb (Nat.eqb i1 i2) then Some false
                                       else if f_code x =? tc_Union
                                       then match fd_equal f (skipn i1 (f_members x)) (skipn i2 (f_members y)) with
                                            | Some true => maps l1' l2'
                                            | r => r
                                            end
                                       else maps l1' l2'
                                   end) (f_lookup x) (f_lookup y)
                           else Some true in
                         match here with
                         | Some true => nodes n' a' b'
                         | r => r
                         end
                   | _, _ => None
                   end
               end) (f_size da) a b
      | _, _ => None
      end
  end.

(** ** Type descriptions on the wire *)

(** to_wire(FieldDesc* ), src/dataencode.cpp:30-67, for a non-null pointer.
    [cur] is the node array from the pointer on.  None = out of fuel or an
    index out of range. *)
Fixpoint to_wire_desc (fuel : nat) (host : bool) (cur : list fdesc) (w : wbuf) : option wbuf :=
  match fuel, cur with
  | S fuel', d :: _ =>
      let w1 := to_wire_u host 1 (f_code d) w in
      if (f_code d =? tc_StructA) || (f_code d =? tc_UnionA)
      then to_wire_desc fuel' host (f_members d) w1
      else if (f_code d =? tc_Struct) || (f_code d =? tc_Union)
      then
        let base := if f_code d =? tc_Struct then cur else f_members d in
        let w2 := to_wire_str host (f_id d) w1 in
        let w3 := to_wire_size host (zlen (f_iter d)) w2 in
        (fix go (l : list (str * nat)) (w : wbuf) : option wbuf :=
           match l with
           | [] => Some w
           | (n, i) :: l' =>
               match to_wire_desc fuel' host (skipn i base) (to_wire_str host n w) with
               | Some w' => go l' w'
               | None => None
               end
           end) (f_iter d) w3
      else Some w1
  | _, _ => None
  end.
(** the null pointer, :32-35 *)
Definition to_wire_nulldesc (host : bool) (w : wbuf) : wbuf := to_wire_u host 1 tc_Null w.

(** TypeStore, src/dataimpl.h: std::map<uint16_t, std::vector<FieldDesc>>.
    Order is irrelevant here. *)
Definition tstore := list (Z * list fdesc).
Fixpoint ts_find (k : Z) (c : tstore) : option (list fdesc) :=
  match c with
  | [] => None
  | (k', v) :: c' => if k =? k' then Some v else ts_find k c'
  end.
(** std::map::emplace(): an existing entry is kept. *)
Definition ts_emplace (k : Z) (v : list fdesc) (c : tstore) : tstore :=
  match ts_find k c with Some _ => c | None => (k, v) :: c end.

(** from_wire(descs, cache, depth), src/dataencode.cpp:69-210.  [n] is
    21-depth, so that [n]=0 is depth>20.  Returns the nodes appended to descs;
    what was in descs before is not accessed.
    Simplification: memory allocation never fails (miter.reserve at :149). *)
Fixpoint from_wire_desc (n : nat) (host : bool) (cache : tstore) (b : rbuf) {struct n}
  : list fdesc * tstore * rbuf :=
  if negb (rgood b) then ([], cache, rfault b)
  else match n with
  | O => ([], cache, rfault b)
  | S n' =>
      let '(code, b1) := from_wire_u host 1 tc_Null b in
      if code =? tc_Null then ([], cache, b1)
      else if code =? 0xfd then
        let '(key, b2) := from_wire_u host 2 0 b1 in
        let '(new, cache', b3) := from_wire_desc n' host cache b2 in
        if negb (rgood b3) || is_nil new then (new, cache', rfault b3)
        else (set_parent 0 new, ts_emplace key new cache', b3)
      else if code =? 0xfe then
        let '(key, b2) := from_wire_u host 2 0 b1 in
        match ts_find key cache with
        | None => ([], cache, rfault b2)
        | Some nodes =>
            if negb (rgood b2) || is_nil nodes then ([], cache, rfault b2)
            else (nodes, cache, b2)
        end
      else if negb (Z.land code 0x10 =? 0) then ([], cache, rfault b1)
      else if (code =? tc_StructA) || (code =? tc_UnionA) then
        let '(mem, cache', b2) := from_wire_desc n' host cache b1 in
        let node := FD [] [] [] 0 mem code in
        if negb (rgood b2) || is_nil mem
           || negb (f_code (hd (fd_new tc_Null) mem) =? tc_scalarOf code)
        then ([node], cache', rfault b2)
        else ([node], cache', b2)
      else if (code =? tc_Struct) || (code =? tc_Union) then
        let '(id, b2) := from_wire_str host [] b1 in
        let '(nfld, b3) := from_wire_size host 0 false b2 in
        let '(fld, kids, cache', b4) :=
          (fix loop (cnt : nat) (fld : fdesc) (kids : list fdesc) (cache : tstore) (name : str) (b : rbuf)
             : fdesc * list fdesc * tstore * rbuf :=
             match cnt with
             | O => (fld, kids, cache, b)
             | S cnt' =>
                 let '(name1, b1) := from_wire_str host name b in
                 let '(new, cache', b2) := from_wire_desc n' host cache b1 in
                 if negb (rgood b2) || is_nil new
                 then (fld, kids ++ new, cache', rfault b2)
                 else
                   let '(fld', kids') := attach_child fld kids name1 new in
                   loop cnt' fld' kids' cache' (name1 ++ [dot]) b2
             end) (Z.to_nat nfld) (FD id [] [] 0 [] code) [] cache [] b3 in
        (finish_node fld kids, cache', b4)
      else if tc_simple_scalar (tc_scalarOf code) then ([fd_new code], cache, b1)
      else ([fd_new code], cache, rfault b1)
  end.

(** the call with depth 0 (default argument, src/dataimpl.h) *)
Definition from_wire_types (host : bool) (cache : tstore) (b : rbuf) : (list fdesc * tstore) * rbuf :=
  from_wire_desc 21 host cache b.
