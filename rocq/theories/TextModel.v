(** Model of the text helpers: number parsing and printing, escaping, line
    splitting and line difference (src/util.cpp), boolean text
    (src/sharedarray.cpp).

    No proofs in this file. *)
From Coq Require Import ZArith List Bool.
From Verif Require Import Base WireModel.
Import ListNotations.
Local Open Scope Z_scope.

(** ** Number parsing *)

(** isspace() in the C locale: space, \t \n \v \f \r.  Simplification: for
    char values above 127, which are passed to isspace() as negative numbers
    (src/util.cpp:769), the answer is no. *)
Definition is_space (c : Z) : bool := (c =? 32) || ((9 <=? c) && (c <=? 13)).

(** value of a digit or letter as strtoull() reads it; 99 = neither *)
Definition digit_val (c : Z) : Z :=
  if (48 <=? c) && (c <=? 57) then c - 48
  else if (97 <=? c) && (c <=? 122) then c - 87
  else if (65 <=? c) && (c <=? 90) then c - 55
  else 99.

Fixpoint skip_space (s : str) : str :=
  match s with
  | c :: s' => if is_space c then skip_space s' else s
  | [] => []
  end.

(** as many digits of the base as there are: value, count, rest *)
Fixpoint digits (base : Z) (acc : Z) (s : str) : Z * bool * str :=
  match s with
  | c :: s' =>
      if digit_val c <? base
      then let '(v, _, r) := digits base (acc * base + digit_val c) s' in (v, true, r)
      else (acc, false, s)
  | [] => (acc, false, [])
  end.

(** the common part of strtoull() and strtoll() with base 0: white space, sign,
    prefix, digits.  None = no number (the end pointer is the start). *)
Definition strto (s : str) : option (bool * Z * str) :=
  let s1 := skip_space s in
  let '(neg, s2) := match s1 with
                    | 45 :: r => (true, r)
                    | 43 :: r => (false, r)
                    | _ => (false, s1)
                    end in
  let '(v, any, rest) :=
    match s2 with
    | 48 :: x :: h :: _ =>
        if ((x =? 120) || (x =? 88)) && (digit_val h <? 16)
        then digits 16 0 (tl (tl s2)) else digits 8 0 s2
    | 48 :: _ => digits 8 0 s2
    | _ => digits 10 0 s2
    end in
  if any then Some (neg, v, rest) else None.

(** std::stoull(s, &idx, 0), as called at src/util.cpp:782: libstdc++'s
    __stoa on strtoull().  The argument is s.c_str(), so a NUL ends it; what is
    after it is "rest".  None = invalid_argument or out_of_range, both of which
    are turned into NoConvert (:783-787).  A minus sign negates modulo 2^64. *)
Definition stoull (s : str) : option (Z * str) :=
  match strto s with
  | None => None
  | Some (neg, v, rest) =>
      if 2 ^ 64 <=? v then None
      else Some ((if neg then (- v) mod 2 ^ 64 else v), rest)
  end.
(** std::stoll(s, &idx, 0), src/util.cpp:800 *)
Definition stoll (s : str) : option (Z * str) :=
  match strto s with
  | None => None
  | Some (neg, v, rest) =>
      let z := if neg then - v else v in
      if (- 2 ^ 63 <=? z) && (z <? 2 ^ 63) then Some (z, rest) else None
  end.
(** parseTo<uint64_t>, src/util.cpp:777-793, and parseTo<int64_t>, :795-811.
    None = NoConvert thrown.  ([strto] stops at a NUL anyway: it is neither
    space, sign nor digit.) *)
Definition parse_u64 (s : str) : option Z :=
  match stoull s with
  | Some (v, rest) => if is_nil (skip_space rest) then Some v else None
  | None => None
  end.
Definition parse_i64 (s : str) : option Z :=
  match stoll s with
  | Some (v, rest) => if is_nil (skip_space rest) then Some v else None
  | None => None
  end.

(** ** Number printing: std::ostream << int64_t / uint64_t, base 10 *)
Fixpoint print_pos (fuel : nat) (z : Z) : str :=
  match fuel with
  | O => []
  | S f => (if z <? 10 then [] else print_pos f (z / 10)) ++ [48 + z mod 10]
  end.
Definition print_int (z : Z) : str :=
  let p x := print_pos (S (Z.to_nat (Z.log2 x))) x in
  if z <? 0 then 45 :: p (- z) else p z.

(** "true" / "false", src/data.cpp:441, 590, 602; sharedarray.cpp:197-205 *)
Definition text_true : str := [116; 114; 117; 101].
Definition text_false : str := [102; 97; 108; 115; 101].
Definition print_bool (b : bool) : str := if b then text_true else text_false.
Definition parse_bool (s : str) : option bool :=
  if str_eqb s text_true then Some true else if str_eqb s text_false then Some false else None.

(** ** Escaper, src/util.cpp:205-240, for a non-null pointer.  A char is signed:
    codes above 127 are negative, so not printable. *)
Definition hex_digit (d : Z) : Z := if d <? 10 then 48 + d else 87 + d.
Definition escape_char (c : Z) : str :=
  if c =? 7 then [92; 97] else if c =? 8 then [92; 98] else if c =? 12 then [92; 102]
  else if c =? 10 then [92; 110] else if c =? 13 then [92; 114] else if c =? 9 then [92; 116]
  else if c =? 11 then [92; 118] else if c =? 92 then [92; 92] else if c =? 39 then [92; 39]
  else if c =? 34 then [92; 34]
  else if (32 <=? c) && (c <=? 126) then [c]
  else [92; 120; hex_digit (c / 16); hex_digit (c mod 16)].
Definition escape (s : str) : str := flat_map escape_char s.

(** ** splitLines(), src/util.cpp:809-826, on a NUL terminated string (here: a
    list without NUL).  None = more iterations than [fuel]. *)
Fixpoint take_line (s : str) : str * str :=
  match s with
  | c :: s' => if (c =? 10) || (c =? 13) then ([], s) else let '(l, r) := take_line s' in (c :: l, r)
  | [] => ([], [])
  end.
Definition skip_eol (s : str) : str :=
  match s with
  | 10 :: 13 :: r => r
  | 13 :: 10 :: r => r
  | 10 :: r => r
  | _ => s
  end.
Fixpoint split_lines (fuel : nat) (s : str) : option (list str) :=
  match s with
  | [] => Some []
  | _ =>
      match fuel with
      | O => None
      | S f =>
          let '(line, r) := take_line s in
          match split_lines f (skip_eol r) with
          | Some ls => Some (line :: ls)
          | None => None
          end
      end
  end.

(** ** strDiff(), src/util.cpp:828-883, on the two lists of lines.  The output
    is the list of lines printed with their tag. *)
Inductive tag := Removed | Added | Same.
(** the two inner loops: diagonal [dist], position [c] on it.  [fuel] bounds
    the number of positions looked at. *)
Inductive found := Match (l r : nat) | Done.
Fixpoint diff_search (fuel : nat) (ls rs : list str) (dist c : nat) : option found :=
  match fuel with
  | O => None
  | S f =>
      if (dist <? c)%nat then diff_search f ls rs (S dist) 0
      else
        let tl := c in
        let tr := (dist - c)%nat in
        if (length ls <=? tl)%nat && (length rs <=? tr)%nat then Some Done
        else if (length ls <=? tl)%nat || (length rs <=? tr)%nat then diff_search f ls rs dist (S c)
        else if str_eqb (nth tl ls []) (nth tr rs []) then Some (Match tl tr)
        else diff_search f ls rs dist (S c)
  end.
(** enough for the search to end: all positions up to the diagonal through
    (length ls, length rs) *)
Definition diff_fuel (ls rs : list str) : nat :=
  let n := (length ls + length rs + 2)%nat in (n * n)%nat.
(** the outer loop; [ls], [rs] are the lines from L and from R on *)
Fixpoint diff_lines (fuel : nat) (ls rs : list str) : option (list (tag * str)) :=
  let trailing := map (pair Removed) ls ++ map (pair Added) rs in
  match ls, rs with
  | [], _ | _, [] => Some trailing
  | _, _ =>
      match fuel with
      | O => None
      | S f =>
          match diff_search (diff_fuel ls rs) ls rs 0 0 with
          | None => None
          | Some Done => Some trailing
          | Some (Match l r) =>
              match diff_lines f (skipn (S l) ls) (skipn (S r) rs) with
              | Some out => Some (map (pair Removed) (firstn l ls) ++ map (pair Added) (firstn r rs)
                                  ++ (Same, nth l ls []) :: out)
              | None => None
              end
          end
      end
  end.
(** the text written, :858-864, 875-881 *)
Definition diff_tag (t : tag) : Z := match t with Removed => 45 | Added => 43 | Same => 32 end.
Definition diff_text (out : list (tag * str)) : str :=
  flat_map (fun p => diff_tag (fst p) :: 32 :: 34 :: escape (snd p) ++ [34; 10]) out.
