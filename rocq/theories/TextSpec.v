(** Specification vocabulary for text. *)
From Coq Require Import ZArith List Bool.
From Verif Require Import Base TextModel.
Import ListNotations.
Local Open Scope Z_scope.

(** ** Numerals *)

(** the digit character for a value below 16, in either case *)
Definition is_digit_of (base : Z) (c v : Z) : Prop :=
  0 <= v < base /\ (c = 48 + v /\ v < 10 \/ c = 87 + v /\ 10 <= v < 16 \/ c = 55 + v /\ 10 <= v < 16).
(** a sequence of digits of the given base with its value, most significant first *)
Inductive numeral (base : Z) : str -> Z -> Prop :=
| num_one : forall c v, is_digit_of base c v -> numeral base [c] v
| num_more : forall s v c d, numeral base s v -> is_digit_of base c d -> numeral base (s ++ [c]) (v * base + d).

Definition spaces (s : str) : Prop := Forall (fun c => is_space c = true) s.

(** the notations of C: decimal without leading zero, octal with a leading
    zero, hexadecimal with 0x *)
Inductive magnitude : str -> Z -> Prop :=
| mag_dec : forall c s v, c <> 48 -> numeral 10 (c :: s) v -> magnitude (c :: s) v
| mag_oct : forall s v, numeral 8 (48 :: s) v -> magnitude (48 :: s) v
| mag_hex : forall x s v, x = 120 \/ x = 88 -> numeral 16 s v -> magnitude (48 :: x :: s) v.

(** optional white space, optional sign, number, optional white space *)
Inductive denotes : str -> Z -> Prop :=
| den_plain : forall a m b v, spaces a -> magnitude m v -> spaces b -> denotes (a ++ m ++ b) v
| den_plus : forall a m b v, spaces a -> magnitude m v -> spaces b -> denotes (a ++ 43 :: m ++ b) v
| den_minus : forall a m b v, spaces a -> magnitude m v -> spaces b -> denotes (a ++ 45 :: m ++ b) (- v).

(** The usual decimal text: minus sign if negative, digits, no leading zero. *)
Definition decimal_text (s : str) (z : Z) : Prop :=
  (s = [48] /\ z = 0) \/
  (exists c r, s = c :: r /\ c <> 48 /\ numeral 10 s z /\ 0 < z) \/
  (exists c r, s = 45 :: c :: r /\ c <> 48 /\ numeral 10 (c :: r) (- z) /\ z < 0).

(** ** Escaped text *)
Definition printable (c : Z) : Prop := 32 <= c <= 126.

(** Reading escaped text back, as a C compiler reads a string literal with two
    digit hexadecimal escapes. *)
Definition hex_val (c : Z) : option Z :=
  if (48 <=? c) && (c <=? 57) then Some (c - 48)
  else if (97 <=? c) && (c <=? 102) then Some (c - 87)
  else None.
Fixpoint unescape (s : str) : option str :=
  match s with
  | [] => Some []
  | 92 :: 120 :: h :: l :: r =>
      match hex_val h, hex_val l, unescape r with
      | Some a, Some b, Some t => Some (16 * a + b :: t)
      | _, _, _ => None
      end
  | 92 :: c :: r =>
      match (if c =? 97 then Some 7 else if c =? 98 then Some 8 else if c =? 102 then Some 12
             else if c =? 110 then Some 10 else if c =? 114 then Some 13 else if c =? 116 then Some 9
             else if c =? 118 then Some 11 else if c =? 92 then Some 92 else if c =? 39 then Some 39
             else if c =? 34 then Some 34 else None), unescape r with
      | Some x, Some t => Some (x :: t)
      | _, _ => None
      end
  | c :: r => match unescape r with Some t => Some (c :: t) | None => None end
  end.

(** Reading a string literal from its opening quote on: the string and what
    follows the closing quote. *)
Fixpoint literal_end (s : str) : option (str * str) :=
  match s with
  | [] => None
  | 34 :: r => Some ([], r)
  | 92 :: c :: r => match literal_end r with Some (t, r') => Some (92 :: c :: t, r') | None => None end
  | c :: r => match literal_end r with Some (t, r') => Some (c :: t, r') | None => None end
  end.
Definition read_literal (s : str) : option (str * str) :=
  match s with
  | 34 :: r =>
      match literal_end r with
      | Some (t, r') => match unescape t with Some x => Some (x, r') | None => None end
      | None => None
      end
  | _ => None
  end.

(** ** Lines *)

(** text made of lines, each ended by \n, \r\n or \n\r, the last one possibly
    without an end *)
Definition eol (s : str) : Prop := s = [10] \/ s = [13; 10] \/ s = [10; 13].
Definition line_text (l : str) : Prop := ~ In 10 l /\ ~ In 13 l.

(** the lines of the left hand side, or of the right hand side, in a difference *)
Definition left_side (out : list (tag * str)) : list str :=
  map snd (filter (fun p => match fst p with Added => false | _ => true end) out).
Definition right_side (out : list (tag * str)) : list str :=
  map snd (filter (fun p => match fst p with Removed => false | _ => true end) out).
