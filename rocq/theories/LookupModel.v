(** Model of the lookup of fields by expression, Value::traverse() and its
    callers, and of Value::nameOf(), src/data.cpp.

    Simplifications.  As in ValueModel.v a value is a tree: what a Union, an Any
    or an array of these holds belongs to it alone, so looking into it hands the
    changed value back to the place it came from.  A Value object pointing into
    a tree is a position (see [tres]).  Memory allocation does not fail.

    No proofs in this file. *)
From Coq Require Import ZArith List Bool.
From Verif Require Import Base WireModel TypeModel TextModel ValueModel.
Import ListNotations.
Local Open Scope Z_scope.

Definition c_up : Z := 60.      (* '<' *)
Definition c_open : Z := 91.    (* '[' *)
Definition c_close : Z := 93.   (* ']' *)
Definition c_minus : Z := 45.   (* '-' *)
Definition c_gt : Z := 62.      (* '>' *)

(** expr.find_first_of(stop, pos) and the text before it: what is before the
    first character of [stop], and the rest (empty if npos), src/data.cpp:829,
    875, 919 *)
Fixpoint cut_at (stop : Z -> bool) (s : str) : str * str :=
  match s with
  | [] => ([], [])
  | c :: s' => if stop c then ([], s) else let '(a, b) := cut_at stop s' in (c :: a, b)
  end.
(** "<[-", src/data.cpp:829 *)
Definition stop_struct (c : Z) : bool := (c =? c_up) || (c =? c_open) || (c =? c_minus).
(** "<[-.", src/data.cpp:875 *)
Definition stop_union (c : Z) : bool := stop_struct c || (c =? dot).

(** What traverse() did.  [At hops i]: the Value now points to field [i] of the
    value reached through [hops]; a hop [(f, e)] goes to what field [f] holds:
    the value selected in a Union or held by an Any ([e] is 0), or element [e] of
    an array.  [Gone]: store and desc were reset, or a null Value was reached;
    LookupError (or another exception) if dothrow, an empty Value otherwise.
    [Threw]: an exception left traverse() whatever dothrow is.  [TUB]: undefined
    behaviour.  [TFuel] is an artefact of the model. *)
Inductive tres :=
| At (hops : list (nat * nat)) (i : nat)
| Gone
| Threw
| TUB
| TFuel.
(** a result inside of what hop [h] leads to, seen from outside *)
Definition through (h : nat * nat) (r : tres) : tres :=
  match r with At hops i => At (h :: hops) i | _ => r end.

(** the storage of field [i] replaced, its mark kept *)
Definition with_sto (i : nat) (s : sto value) (v : value) : value :=
  match nth_error (v_cells v) i with
  | Some (b, _) => Val (v_nodes v) (cell_set i (b, s) (v_cells v))
  | None => v
  end.

(** The loop of Value::traverse(), src/data.cpp:788-945, at field [i] of [v] with
    the text [s] from position pos on.  [start]: pos is 0; [md]: maybedot.  Gives
    the value as it is afterwards, also if the lookup fails. *)
Fixpoint traverse (fuel : nat) (modify start md : bool) (s : str) (v : value) (i : nat) : value * tres :=
  match fuel with
  | O => (v, TFuel)
  | S f =>
      match s with
      | [] => (v, At [] i)
      | c :: s' =>
          match nth_error (v_nodes v) i, nth_error (v_cells v) i with
          | Some d, Some (_, st) =>
              (* :789-809 *)
              if c =? c_up then
                if (i =? 0)%nat then (v, Gone)
                else if (i <? f_parent d)%nat then (v, TUB)
                else traverse f modify false md s' v (i - f_parent d)
              (* :811-857 *)
              else if f_code d =? tc_Struct then
                if md && negb (c =? dot) then (v, Gone)
                else
                  let '(name, rest) := cut_at stop_struct (if md then s' else s) in
                  if start && is_nil name then (v, Gone)   (* sep is 0 *)
                  else match map_get name (f_lookup d) with
                       | Some k => traverse f modify false false rest v (i + k)
                       | None => (v, Gone)
                       end
              (* :859-912 *)
              else if (f_code d =? tc_Union) || (f_code d =? tc_Any) then
                match s' with
                | c2 :: t =>
                    if (c =? c_minus) && (c2 =? c_gt) then
                      match st with
                      | SSel o =>
                          if f_code d =? tc_Any then
                            match o with
                            | None => (v, Gone)
                            | Some (k, w) =>
                                let '(w', r) := traverse f modify false false t w 0%nat in
                                (with_sto i (SSel (Some (k, w'))) v, through (i, 0%nat) r)
                            end
                          else
                            let '(name, rest) := cut_at stop_union t in
                            match map_get name (f_lookup d) with
                            | Some k =>
                                let chosen := match o with Some (k', _) => Nat.eqb k' k | None => false end in
                                if modify || chosen then
                                  match (match o with
                                         | Some (_, w) => if chosen then DOK w else value_new (sub_desc k (f_members d))
                                         | None => value_new (sub_desc k (f_members d))
                                         end) with
                                  | DOK w =>
                                      let '(w', r) := traverse f modify false true rest w 0%nat in
                                      (with_sto i (SSel (Some (k, w'))) v, through (i, 0%nat) r)
                                  | DThrow => (v, Threw)
                                  | DUB => (v, TUB)
                                  | DFuel => (v, TFuel)
                                  end
                                else (v, Gone)
                            | None =>
                                match o with
                                | Some (k, w) =>
                                    let '(w', r) := traverse f modify false false t w 0%nat in
                                    (with_sto i (SSel (Some (k, w'))) v, through (i, 0%nat) r)
                                | None => (v, Gone)
                                end
                            end
                      | _ => (v, TUB)
                      end
                    else (v, Gone)
                | [] => (v, Gone)
                end
              (* :914-944 *)
              else if tc_isarray (f_code d) && tc_compound (f_code d) then
                if c =? c_open then
                  match cut_at (fun x => x =? c_close) s' with
                  | (x :: index, _ :: t) =>
                      match parse_u64 (x :: index) with
                      | None => (v, Threw)
                      | Some n =>
                          match st with
                          | SArr (AVals l) =>
                              if n <? zlen l then
                                match nth_error l (Z.to_nat n) with
                                | Some (Some w) =>
                                    let '(w', r) := traverse f modify false true t w 0%nat in
                                    (with_sto i (SArr (AVals (cell_set (Z.to_nat n) (Some w') l))) v,
                                     through (i, Z.to_nat n) r)
                                | _ => (v, Gone)
                                end
                              else (v, Gone)
                          | SArr _ => (v, Gone)
                          | _ => (v, TUB)
                          end
                      end
                  | _ => (v, Gone)
                  end
                else (v, Gone)
              else (v, Gone)
          | _, _ => (v, TUB)
          end
      end
  end.

(** traverse() from the start of [expr], src/data.cpp:783-787 *)
Definition lookup_expr (fuel : nat) (modify : bool) (expr : str) (v : value) (i : nat) : value * tres :=
  traverse fuel modify true false expr v i.

(** What the caller of operator[] / lookup() gets, src/data.cpp:950-985: a
    position, an empty Value, or an exception. *)
Inductive lres := LField (hops : list (nat * nat)) (i : nat) | LEmpty | LThrow | LBad.
Definition l_result (dothrow : bool) (r : tres) : lres :=
  match r with
  | At hops i => LField hops i
  | Gone => if dothrow then LThrow else LEmpty
  | Threw => LThrow
  | TUB | TFuel => LBad
  end.

(** Value::nameOf(), src/data.cpp:372-397, for a non-empty Value at node [d] of a
    Struct or Union; [off] is the distance of the other description: from [d]
    itself (Struct) or from the member vector of [d] (Union).  None = throws *)
Definition name_of_node (d : fdesc) (off : nat) : option str :=
  if f_code d =? tc_Struct then
    if (off =? 0)%nat || (length (f_lookup d) <? off)%nat then None
    else option_map fst (find (fun p => Nat.eqb (snd p) off) (f_lookup d))
  else if f_code d =? tc_Union then
    option_map fst (find (fun p => Nat.eqb (snd p) off) (f_lookup d))
  else None.
