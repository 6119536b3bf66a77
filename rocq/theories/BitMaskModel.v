(** Model of BitMask, src/bitmask.h and src/bitmask.cpp.  No proofs. *)
From Coq Require Import ZArith List Bool.
From Verif Require Import Base WireModel.
Import ListNotations.
Local Open Scope Z_scope.

(** BitMask members, src/bitmask.h:91-98.  [bm_size] is a uint16_t. *)
Record bmask := BM { bm_words : list Z; bm_size : Z }.

Definition bm_empty : bmask := BM [] 0.

(** std::vector<uint64_t>::resize(n, 0) *)
Definition vec_resize (n : Z) (l : list Z) : list Z :=
  firstn (Z.to_nat n) l ++ repeat 0 (Z.to_nat n - length l).

(** BitMask::resize(), src/bitmask.cpp:44-49, with size_t arithmetic *)
Definition bm_resize (bits : Z) (m : bmask) : bmask :=
  let storebits := u_cast 8 (Z.lor (u_cast 8 (bits - 1)) 0x3f + 1) in
  BM (vec_resize (storebits / 64) (bm_words m)) (u_cast 2 bits).

Fixpoint list_set (i : nat) (v : Z) (l : list Z) : list Z :=
  match l, i with
  | [], _ => []
  | _ :: l', O => v :: l'
  | x :: l', S i' => x :: list_set i' v l'
  end.

(** _BitRef, src/bitmask.h:141-160.  None: index beyond the words (UB). *)
Definition bm_get (m : bmask) (bit : Z) : option bool :=
  match nth_error (bm_words m) (Z.to_nat (bit / 64)) with
  | None => None
  | Some w => Some (negb (Z.land w (2 ^ (bit mod 64)) =? 0))
  end.
Definition bm_set (m : bmask) (bit : Z) (v : bool) : option bmask :=
  match nth_error (bm_words m) (Z.to_nat (bit / 64)) with
  | None => None
  | Some w =>
      let w' := if v then Z.lor w (2 ^ (bit mod 64)) else Z.ldiff w (2 ^ (bit mod 64)) in
      Some (BM (list_set (Z.to_nat (bit / 64)) w' (bm_words m)) (bm_size m))
  end.

Fixpoint bm_set_all (m : bmask) (bits : list Z) : option bmask :=
  match bits with
  | [] => Some m
  | b :: bits' => match bm_set m b true with None => None | Some m' => bm_set_all m' bits' end
  end.
(** BitMask(initializer_list, nbits), src/bitmask.cpp:31-42 *)
Definition bm_init (bits : list Z) (nbits : Z) : option bmask :=
  match bits with
  | [] => Some (bm_resize nbits bm_empty)
  | _ => bm_set_all (bm_resize (Z.max nbits (1 + fold_right Z.max 0 bits)) bm_empty) bits
  end.

(** one step of the binary search: if(masked & c) bit -= k *)
Definition bs_step (masked c k bit : Z) : Z := if Z.land masked c =? 0 then bit else bit - k.

(** index of the only set bit of [masked], src/bitmask.cpp:76-82 *)
Definition bit_search (masked : Z) : Z :=
  let bit := 63 in
  let bit := bs_step masked 0x00000000ffffffff 32 bit in
  let bit := bs_step masked 0x0000ffff0000ffff 16 bit in
  let bit := bs_step masked 0x00ff00ff00ff00ff 8 bit in
  let bit := bs_step masked 0x0f0f0f0f0f0f0f0f 4 bit in
  let bit := bs_step masked 0x3333333333333333 2 bit in
  bs_step masked 0x5555555555555555 1 bit.

(** BitMask::findSet(), src/bitmask.cpp:51-88.  None: out of fuel, or a word
    index out of range. *)
Fixpoint find_set_loop (fuel : nat) (m : bmask) (start : Z) : option Z :=
  match fuel with
  | O => None
  | S f =>
      if negb (start <? bm_size m) then Some (bm_size m)
      else
        let word := start / 64 in
        let bit := start mod 64 in
        match nth_error (bm_words m) (Z.to_nat word) with
        | None => None
        | Some w =>
            let mask := u_cast 8 (Z.lnot (2 ^ bit - 1)) in
            let masked := Z.land w mask in
            if masked =? 0 then find_set_loop f m ((word + 1) * 64)
            else Some (Z.lor (word * 64) (bit_search (Z.land masked (u_cast 8 (- masked)))))
        end
  end.
Definition find_set (m : bmask) (start : Z) : option Z :=
  find_set_loop (S (S (length (bm_words m)))) m start.

(** iteration of onlySet(a, b), src/bitmask.h:170-200: begin is findSet(a), the
    loop ends when the current index equals b.  None: more than [fuel] visits. *)
Fixpoint iter_from (fuel : nat) (m : bmask) (cur b : Z) : option (list Z) :=
  if cur =? b then Some []
  else match fuel with
  | O => None
  | S f => match find_set m (cur + 1) with
           | None => None
           | Some nxt => match iter_from f m nxt b with
                         | None => None
                         | Some l => Some (cur :: l)
                         end
           end
  end.
Definition only_set_range (fuel : nat) (m : bmask) (a b : Z) : option (list Z) :=
  match find_set m a with None => None | Some c => iter_from fuel m c b end.
Definition only_set (fuel : nat) (m : bmask) : option (list Z) :=
  only_set_range fuel m 0 (bm_size m).

(** Expressions, src/bitmask.h:30-87, evaluated by BitMask(expr) (:205-209).
    None: the std::logic_error of a size mismatch, or a word access out of
    range. *)
Inductive bexpr := BEmask (m : bmask) | BEnot (e : bexpr) | BEand (a b : bexpr) | BEor (a b : bexpr).
Fixpoint be_size (e : bexpr) : Z :=
  match e with
  | BEmask m => bm_size m
  | BEnot e => be_size e
  | BEand a b => Z.min (be_size a) (be_size b)
  | BEor a b => Z.max (be_size a) (be_size b)
  end.
Fixpoint be_wsize (e : bexpr) : nat :=
  match e with
  | BEmask m => length (bm_words m)
  | BEnot e => be_wsize e
  | BEand a b => Nat.min (be_wsize a) (be_wsize b)
  | BEor a b => Nat.max (be_wsize a) (be_wsize b)
  end.
Fixpoint be_word (e : bexpr) (i : nat) : option Z :=
  match e with
  | BEmask m => nth_error (bm_words m) i
  | BEnot e => match be_word e i with None => None | Some w => Some (u_cast 8 (Z.lnot w)) end
  | BEand a b => match be_word a i, be_word b i with Some x, Some y => Some (Z.land x y) | _, _ => None end
  | BEor a b => match be_word a i, be_word b i with Some x, Some y => Some (Z.lor x y) | _, _ => None end
  end.
(** the checks made while the expression is built *)
Fixpoint be_ok (e : bexpr) : bool :=
  match e with
  | BEmask _ => true
  | BEnot e => be_ok e
  | BEand a b | BEor a b => be_ok a && be_ok b && (be_size a =? be_size b)
  end.
Fixpoint be_store (e : bexpr) (n i : nat) (words : list Z) : option (list Z) :=
  match n with
  | O => Some words
  | S n' =>
      match be_word e i with
      | None => None
      | Some w => if (i <? length words)%nat then be_store e n' (S i) (list_set i w words) else None
      end
  end.
Definition be_eval (e : bexpr) : option bmask :=
  if negb (be_ok e) then None
  else
    let m := bm_resize (be_size e) bm_empty in
    match be_store e (be_wsize e) 0 (bm_words m) with
    | None => None
    | Some ws => Some (BM ws (bm_size m))
    end.

(** operator==, src/bitmask.cpp:103-111.  std::equal reads as many words of rhs
    as lhs has; None when rhs has fewer (UB). *)
Definition bm_eqb (a b : bmask) : option bool :=
  if negb (bm_size a =? bm_size b) then Some false
  else if (length (bm_words b) <? length (bm_words a))%nat then None
  else Some (str_eqb (bm_words a) (firstn (length (bm_words a)) (bm_words b))).

(** ** Wire form *)

(** number of bytes needed for a non-zero word with a zero top byte,
    src/bitmask.cpp:126-132 *)
Definition mask_extra (last : Z) : Z :=
  if negb (Z.land last 0x00ff000000000000 =? 0) then 7
  else if negb (Z.land last 0x0000ff0000000000 =? 0) then 6
  else if negb (Z.land last 0x000000ff00000000 =? 0) then 5
  else if negb (Z.land last 0x00000000ff000000 =? 0) then 4
  else if negb (Z.land last 0x0000000000ff0000 =? 0) then 3
  else if negb (Z.land last 0x000000000000ff00 =? 0) then 2
  else if negb (Z.land last 0x00000000000000ff =? 0) then 1
  else 0.
(** the trailing zeros loop, src/bitmask.cpp:119-134: (nwords, extra) *)
Fixpoint mask_scan (nwords : nat) (words : list Z) : nat * Z :=
  match nwords with
  | O => (O, 0)
  | S n =>
      let last := nth n words 0 in
      if negb (Z.land last 0xff00000000000000 =? 0) then (nwords, 0)
      else if last =? 0 then mask_scan n words
      else (n, mask_extra last)
  end.

Fixpoint to_wire_words (host : bool) (l : list Z) (w : wbuf) : wbuf :=
  match l with [] => w | v :: l' => to_wire_words host l' (to_wire_u host 8 v w) end.
(** the trailing single bytes, src/bitmask.cpp:141-146 *)
Fixpoint to_wire_tail (host : bool) (last : Z) (i n : nat) (w : wbuf) : wbuf :=
  match n with
  | O => w
  | S n' => to_wire_tail host last (S i) n' (to_wire_u host 1 (Z.shiftr last (8 * Z.of_nat i)) w)
  end.
(** to_wire(Buffer, BitMask), src/bitmask.cpp:116-147 *)
Definition to_wire_mask (host : bool) (m : bmask) (w : wbuf) : wbuf :=
  let '(nwords, extra) := mask_scan (length (bm_words m)) (bm_words m) in
  let nbytes := Z.of_nat nwords * 8 + extra in
  let w := to_wire_size host nbytes w in
  let w := to_wire_words host (firstn nwords (bm_words m)) w in
  if extra =? 0 then w
  else to_wire_tail host (nth nwords (bm_words m) 0) 0 (Z.to_nat extra) w.

(** reading into words 0.. of the mask; each is left as it was if the read faults *)
Fixpoint from_wire_words (host : bool) (n : nat) (old : list Z) (b : rbuf) : list Z * rbuf :=
  match n, old with
  | S n', o :: old' =>
      let '(v, b1) := from_wire_u host 8 o b in
      let '(l, b2) := from_wire_words host n' old' b1 in (v :: l, b2)
  | _, _ => (old, b)
  end.
Fixpoint from_wire_tail (host : bool) (i n : nat) (last : Z) (b : rbuf) : Z * rbuf :=
  match n with
  | O => (last, b)
  | S n' =>
      let '(v, b1) := from_wire_u host 1 0 b in
      from_wire_tail host (S i) n' (Z.lor last (Z.shiftl v (8 * Z.of_nat i))) b1
  end.
(** from_wire(Buffer, BitMask), src/bitmask.cpp:150-173, into an existing mask *)
Definition from_wire_mask (host : bool) (m : bmask) (b : rbuf) : bmask * rbuf :=
  let '(nbytes, b1) := from_wire_size host 0 false b in
  if negb (rgood b1) || ((2 ^ 64 - 1) / 8 <? nbytes) then (m, b1)
  else
    let m1 := bm_resize (8 * nbytes) m in
    let nwords := Z.to_nat (nbytes / 8) in
    let extra := nbytes mod 8 in
    let '(ws, b2) := from_wire_words host nwords (bm_words m1) b1 in
    if extra =? 0 then (BM ws (bm_size m1), b2)
    else
      let '(last, b3) := from_wire_tail host 0 (Z.to_nat extra) (nth nwords ws 0) b2 in
      (BM (list_set nwords last ws) (bm_size m1), b3).
