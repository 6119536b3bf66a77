(** Model of marks and of iteration over the fields of a Value (src/data.cpp).

    A field is (nodes, cells, index): its StructTop and its position in it
    (Value::store and Value::desc always move together).

    No proofs in this file. *)
From Coq Require Import ZArith List Bool.
From Verif Require Import Base WireModel TypeModel ValueModel.
Import ListNotations.
Local Open Scope Z_scope.

Definition marked_at (cells : list cell) (i : nat) : bool :=
  match nth_error cells i with Some (b, _) => b | None => false end.

(** the loop up to the top, src/data.cpp:233-243 and :290-300: the positions it
    visits.  Position 0 is top->desc.  DUB = moved out of the array; DFuel = it
    does not end (a parent_index of 0). *)
Fixpoint climb (fuel : nat) (nodes : list fdesc) (i : nat) : dres (list nat) :=
  match i with
  | O => DOK []
  | _ =>
      match fuel with
      | O => DFuel
      | S f =>
          match nth_error nodes i with
          | None => DUB
          | Some d =>
              if (i <? f_parent d)%nat then DUB
              else
                let p := (i - f_parent d)%nat in
                match climb f nodes p with
                | DOK l => DOK (p :: l)
                | r => r
                end
          end
      end
  end.

(** the positions of the children loop, src/data.cpp:223-231 and :283-288 *)
Definition range_of (nodes : list fdesc) (i : nat) : list nat :=
  match nth_error nodes i with
  | Some d => if (1 <? f_size d)%nat then seq i (f_size d) else []
  | None => []
  end.

(** Value::isMarked(), src/data.cpp:213-246 *)
Definition is_marked (nodes : list fdesc) (cells : list cell) (i : nat) (parents children : bool) : dres bool :=
  if marked_at cells i then DOK true
  else if children && existsb (marked_at cells) (range_of nodes i) then DOK true
  else if parents then
    match climb i nodes i with
    | DOK l => DOK (existsb (marked_at cells) l)
    | DThrow => DThrow | DUB => DUB | DFuel => DFuel
    end
  else DOK false.

Definition set_mark (b : bool) (cells : list cell) (i : nat) : list cell :=
  match nth_error cells i with
  | Some (_, s) => cell_set i (b, s) cells
  | None => cells
  end.
Definition set_marks (b : bool) (l : list nat) (cells : list cell) : list cell :=
  fold_left (set_mark b) l cells.

(** Value::unmark(), src/data.cpp:273-302 *)
Definition unmark (nodes : list fdesc) (cells : list cell) (i : nat) (parents children : bool) : dres (list cell) :=
  let c1 := set_mark false cells i in
  let c2 := if children then set_marks false (range_of nodes i) c1 else c1 in
  if parents then
    match climb i nodes i with
    | DOK l => DOK (set_marks false l c2)
    | DThrow => DThrow | DUB => DUB | DFuel => DFuel
    end
  else DOK c2.

(** Value::clear(), src/data.cpp:178-211: store of one field after clear().
    shared_array<void>::clear() (src/pvxs/sharedArray.h:616-619) drops the
    elements and the element type; zeroing all bytes of a bool gives false. *)
Definition clear_sto (s : sto value) : sto value :=
  match s with
  | SNull => SNull
  | SReal _ => SReal 0
  | SInt _ => SInt 0
  | SUInt _ => SUInt 0
  | SBool _ => SBool false
  | SStr _ => SStr []
  | SSel _ => SSel None
  | SArr _ => SArr ANull
  end.
Definition clear (nodes : list fdesc) (cells : list cell) (i : nat) : list cell :=
  match nth_error nodes i with
  | Some d =>
      firstn i cells
      ++ map (fun c => (false, clear_sto (snd c))) (firstn (f_size d) (skipn i cells))
      ++ skipn (i + f_size d) cells
  | None => cells
  end.

(** ** mark(), src/data.cpp:256-271, on all StructTops alive.  A top has its
    cells and the weak pointer [enclosing] to the field (top, position) which
    holds it, if any (src/dataimpl.h:158-170).  None: no enclosing field, or it
    is gone. *)
Definition heap := list (list cell * option (nat * nat)).
Definition heap_set_mark (b : bool) (h : heap) (t i : nat) : heap :=
  match nth_error h t with
  | Some (cells, e) => cell_set t (set_mark b cells i, e) h
  | None => h
  end.
(** the loop, :265-270; [fuel] bounds the nesting *)
Fixpoint mark_enclosing (fuel : nat) (h : heap) (t : nat) : option heap :=
  match nth_error h t with
  | Some (_, Some (t', i')) =>
      match fuel with
      | O => None
      | S f => mark_enclosing f (heap_set_mark true h t' i') t'
      end
  | _ => Some h
  end.
Definition mark (h : heap) (t i : nat) (v : bool) : option heap :=
  let h1 := heap_set_mark v h t i in
  if v then mark_enclosing (length h) h1 t else Some h1.

(** ** Iteration *)

(** _next_marked() for a Struct, src/data.cpp:1091-1107.  [n] is mlookup.size();
    position [pos] is the field at i+1+pos.  Returns (pos, nextcheck). *)
Fixpoint next_marked (fuel : nat) (nodes : list fdesc) (cells : list cell) (i n pos : nat) : nat * nat :=
  match fuel with
  | O => (pos, pos)
  | S f =>
      if (pos <? n)%nat then
        if marked_at cells (i + 1 + pos)
        then (pos, pos + f_size (nth (i + 1 + pos) nodes (fd_new tc_Null)))%nat
        else next_marked f nodes cells i n (S pos)
      else (pos, pos)
  end.
(** begin(), operator++ until == end(), src/data.cpp:1140-1198, with the test
    at :1090 *)
Fixpoint imarked_loop (fuel : nat) (nodes : list fdesc) (cells : list cell) (i n pos nextcheck : nat) : option (list nat) :=
  match fuel with
  | O => None
  | S f =>
      let '(pos, nextcheck) :=
        if (pos <? nextcheck)%nat then (pos, nextcheck)
        else next_marked (S n) nodes cells i n pos in
      if Nat.eqb pos n then Some []
      else
        match imarked_loop f nodes cells i n (S pos) nextcheck with
        | Some l => Some ((i + 1 + pos)%nat :: l)
        | None => None
        end
  end.
(** Value::imarked() of a Struct: the fields visited.  None = the end is never
    reached. *)
Definition imarked (nodes : list fdesc) (cells : list cell) (i : nat) : option (list nat) :=
  match nth_error nodes i with
  | Some d =>
      if f_code d =? tc_Struct
      then imarked_loop (S (length (f_lookup d))) nodes cells i (length (f_lookup d)) 0 0
      else Some []
  | None => Some []
  end.

(** imarked() of a Union, _next_marked() src/data.cpp:1109-1137: positions in
    miter.  [sel] is the member index of the selection.  None = the assert at
    :1135 *)
Definition next_union (it : list (str * nat)) (sel : option nat) (pos : nat) : option nat :=
  match nth_error it pos, sel with
  | None, _ => Some pos
  | Some _, None => Some (length it)
  | Some (_, k), Some s =>
      if (s <? k)%nat then Some (length it)
      else if (k <? s)%nat then
        let p := (pos + miter_pos s (skipn pos it))%nat in
        if (p <? length it)%nat then Some p else None
      else Some pos
  end.
Fixpoint imarked_union (fuel : nat) (it : list (str * nat)) (sel : option nat) (pos : nat) : option (list nat) :=
  match fuel with
  | O => None
  | S f =>
      match next_union it sel pos with
      | None => None
      | Some p =>
          if Nat.eqb p (length it) then Some []
          else match imarked_union f it sel (S p) with
               | Some l => Some (p :: l)
               | None => None
               end
      end
  end.

(** Value::iall(), ichildren() of a Struct, src/data.cpp:1008-1074 *)
Definition iall (nodes : list fdesc) (i : nat) : list nat :=
  match nth_error nodes i with
  | Some d => if f_code d =? tc_Struct then map (fun p => i + 1 + p)%nat (seq 0 (length (f_lookup d))) else []
  | None => []
  end.
Definition ichildren (nodes : list fdesc) (i : nat) : list nat :=
  match nth_error nodes i with
  | Some d => if f_code d =? tc_Struct then map (fun p => i + snd p)%nat (f_iter d) else []
  | None => []
  end.
