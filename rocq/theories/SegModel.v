(** Model of the segmented buffers (EvInBuf, EvOutBuf of src/evhelper.cpp) and
    of the slice by slice array copy loops of src/pvaproto.h.

    libevent is represented by an oracle: a stream of numbers deciding how long
    the contiguous slice presented by each refill is, within the limits which
    the libevent API promises.  No proofs in this file. *)
From Coq Require Import ZArith List Bool.
From Verif Require Import Base WireModel.
Import ListNotations.
Local Open Scope Z_scope.

(** ** Reading *)

(** EvInBuf, src/pvaproto.h:148-164.  [ewin] is [pos,limit), [eback] is the
    content of the evbuffer after the current window.  [eorc] supplies the
    choices of libevent, one per refill. *)
Record ebuf := EB { ewin : list Z; eback : list Z; ebe : bool; eerr : bool; eorc : nat -> Z }.

(** content not yet consumed *)
Definition econtent (e : ebuf) : list Z := ewin e ++ eback e.
Definition efault (e : ebuf) : ebuf := EB (ewin e) (eback e) (ebe e) true (eorc e).

(** EvInBuf::refill(), src/evhelper.cpp:990-1036.  [mss] is min_slice_size
    (:42, a test may change it).  evbuffer_pullup(requesting) guarantees that
    the first slice has at least [requesting] bytes; it may be longer, as
    decided by the oracle.  With an empty evbuffer pullup fails (:1015).
    Simplification: max_req (SSIZE_MAX, :1003) is never reached. *)
Definition erefill (mss needed : Z) (e : ebuf) : bool * ebuf :=
  if eerr e then (false, e)
  else
    let all := econtent e in
    let orc' := fun i => eorc e (S i) in
    if needed =? 0 then (true, EB [] all (ebe e) (eerr e) orc')
    else if zlen all =? 0 then (false, EB [] all (ebe e) (eerr e) orc')
    else
      let requesting := Z.min (Z.max needed mss) (zlen all) in
      let k := Z.max requesting (Z.min (eorc e 0%nat) (zlen all)) in
      let e' := EB (firstn (Z.to_nat k) all) (skipn (Z.to_nat k) all) (ebe e) (eerr e) orc' in
      (needed <=? zlen (ewin e'), e').

(** Buffer::ensure(), src/pvaproto.h:70-72 *)
Definition eensure (mss n : Z) (e : ebuf) : bool * ebuf :=
  if eerr e then (false, e)
  else if n <=? zlen (ewin e) then (true, e)
  else erefill mss n e.

Definition eadvance (n : Z) (e : ebuf) : ebuf :=
  EB (skipn (Z.to_nat n) (ewin e)) (eback e) (ebe e) (eerr e) (eorc e).

(** Buffer::skip(), src/pvaproto.h:73-83.  Note that [pos = limit] precedes
    [i -= size()], so the subtraction is always of zero (:79-80) and the window
    just skipped is not counted.  As refill(i) only succeeds when the new
    window holds i bytes, the loop body runs at most twice. *)
Definition eskip (mss n : Z) (e : ebuf) : ebuf :=
  if n <=? zlen (ewin e) then eadvance n e
  else
    let e1 := EB [] (eback e) (ebe e) (eerr e) (eorc e) in (* pos = limit *)
    let '(ok, e2) := erefill mss n e1 in
    if ok then eadvance n e2 else efault e2.

(** Everything a decoder can do with a Buffer, as a program: read and consume
    [n] bytes or fault, look at [n] bytes without consuming or fault, fault,
    query and set the byte order, query good(). *)
Inductive rprog (A : Type) : Type :=
| PRet (a : A)
| PTake (n : Z) (k : option (list Z) -> rprog A)
| PPeek (n : Z) (k : option (list Z) -> rprog A)
| PFault (k : rprog A)
| PGetBe (k : bool -> rprog A)
| PSetBe (be : bool) (k : rprog A)
| PGood (k : bool -> rprog A).
Arguments PRet {A} a.
Arguments PTake {A} n k.
Arguments PPeek {A} n k.
Arguments PFault {A} k.
Arguments PGetBe {A} k.
Arguments PSetBe {A} be k.
Arguments PGood {A} k.

Fixpoint pbind {A B} (p : rprog A) (f : A -> rprog B) : rprog B :=
  match p with
  | PRet a => f a
  | PTake n k => PTake n (fun o => pbind (k o) f)
  | PPeek n k => PPeek n (fun o => pbind (k o) f)
  | PFault k => PFault (pbind k f)
  | PGetBe k => PGetBe (fun o => pbind (k o) f)
  | PSetBe be k => PSetBe be (pbind k f)
  | PGood k => PGood (fun o => pbind (k o) f)
  end.

(** Running a program on a contiguous buffer. *)
Fixpoint run_flat {A} (p : rprog A) (b : rbuf) : A * rbuf :=
  match p with
  | PRet a => (a, b)
  | PTake n k =>
      if rensure n b then run_flat (k (Some (firstn (Z.to_nat n) (rd b)))) (radvance n b)
      else run_flat (k None) (rfault b)
  | PPeek n k =>
      if rensure n b then run_flat (k (Some (firstn (Z.to_nat n) (rd b)))) b
      else run_flat (k None) (rfault b)
  | PFault k => run_flat k (rfault b)
  | PGetBe k => run_flat (k (rbe b)) b
  | PSetBe be k => run_flat k (RB (rd b) be (rerr b))
  | PGood k => run_flat (k (rgood b)) b
  end.

(** Running the same program on a segmented buffer: every access is preceded by
    ensure(), as in src/pvaproto.h:70-72, 187-205, 364-405. *)
Fixpoint run_seg {A} (mss : Z) (p : rprog A) (e : ebuf) : A * ebuf :=
  match p with
  | PRet a => (a, e)
  | PTake n k =>
      let '(ok, e1) := eensure mss n e in
      if ok then run_seg mss (k (Some (firstn (Z.to_nat n) (ewin e1)))) (eadvance n e1)
      else run_seg mss (k None) (efault e1)
  | PPeek n k =>
      let '(ok, e1) := eensure mss n e in
      if ok then run_seg mss (k (Some (firstn (Z.to_nat n) (ewin e1)))) e1
      else run_seg mss (k None) (efault e1)
  | PFault k => run_seg mss k (efault e)
  | PGetBe k => run_seg mss (k (ebe e)) e
  | PSetBe be k => run_seg mss k (EB (ewin e) (eback e) be (eerr e) (eorc e))
  | PGood k => run_seg mss (k (negb (eerr e))) e
  end.

(** ** Array copy loops *)

(** swap the bytes of each [n] byte element, src/pvaproto.h:498-507, 547-556 *)
Fixpoint split_every (n fuel : nat) (l : list Z) : list (list Z) :=
  match fuel with
  | O => []
  | S f => match l with [] => [] | _ => firstn n l :: split_every n f (skipn n l) end
  end.

(** The slice by slice loop of from_wire<E,C>(), src/pvaproto.h:535-561, on a
    segmented buffer.  [nremain] counts bytes; each round copies as many whole
    elements as the window holds.  [fuel] bounds the number of rounds (each
    round copies at least one element, so nremain/n suffices); None = out of
    fuel.  Result: the elements copied, in order. *)
Fixpoint seg_pod_loop (fuel : nat) (mss : Z) (host : bool) (n : nat) (nremain : Z) (e : ebuf)
  : option (list Z * ebuf) :=
  if nremain =? 0 then Some ([], e)
  else match fuel with
  | O => None
  | S f =>
      let '(ok, e1) := eensure mss (Z.of_nat n) e in
      if negb ok then Some (repeat 0 (Z.to_nat (nremain / Z.of_nat n)), efault e1)
      else
        let nbytes := Z.ldiff (Z.min (zlen (ewin e1)) nremain) (Z.of_nat n - 1) in
        let chunk := firstn (Z.to_nat nbytes) (ewin e1) in
        let elems := split_every n (length chunk) chunk in
        let vals := map (fun m => of_mem host (if Bool.eqb (ebe e1) host then m else rev m)) elems in
        let e2 := eskip mss nbytes e1 in
        match seg_pod_loop f mss host n (nremain - nbytes) e2 with
        | None => None
        | Some (l, e3) => Some (vals ++ l, e3)
        end
  end.

(** ** Writing *)

(** EvOutBuf, src/pvaproto.h:132-146, src/evhelper.cpp:961-986.  [odone] is
    what was committed and written so far, [oroom] the space left in the
    window.  evbuffer_reserve_space(more) presents a window of at least [more]
    bytes.  Simplification: reserve_space never fails. *)
Record obuf := OB { odone : list Z; oroom : Z; obe : bool; oerr : bool; oorc : nat -> Z }.

Definition ofault (o : obuf) : obuf := OB (odone o) (oroom o) (obe o) true (oorc o).
Definition orefill (more : Z) (o : obuf) : bool * obuf :=
  if oerr o then (false, o)
  else (true, OB (odone o) (if more =? 0 then 0 else Z.max more (oorc o 0%nat)) (obe o) (oerr o) (fun i => oorc o (S i))).
Definition oensure (n : Z) (o : obuf) : bool * obuf :=
  if oerr o then (false, o)
  else if n <=? oroom o then (true, o)
  else orefill n o.
Definition opush (l : list Z) (o : obuf) : obuf :=
  OB (odone o ++ l) (oroom o - zlen l) (obe o) (oerr o) (oorc o).

(** The slice by slice loop of to_wire<E,C>(), src/pvaproto.h:486-512.  [src]
    is the array memory still to be copied. *)
Fixpoint out_pod_loop (fuel : nat) (host : bool) (n : nat) (src : list Z) (o : obuf) : option obuf :=
  if zlen src =? 0 then Some o
  else match fuel with
  | O => None
  | S f =>
      let '(ok, o1) := oensure (Z.of_nat n) o in
      if negb ok then Some (ofault o1)
      else
        let nbytes := Z.ldiff (Z.min (oroom o1) (zlen src)) (Z.of_nat n - 1) in
        let chunk := firstn (Z.to_nat nbytes) src in
        let data := if Bool.eqb (obe o1) host then chunk
                    else concat (map (@rev Z) (split_every n (length chunk) chunk)) in
        out_pod_loop f host n (skipn (Z.to_nat nbytes) src) (opush data o1)
  end.
