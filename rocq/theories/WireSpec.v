(** Specification vocabulary for the wire codec, independent of how the codec
    is written. *)
From Coq Require Import ZArith List Bool.
From Verif Require Import Base WireModel.
Import ListNotations.
Local Open Scope Z_scope.

(** A fresh output buffer already holding [pre], in byte order [be], able to
    grow. *)
Definition outbuf (pre : list Z) (be : bool) : wbuf := WB pre None be false.
(** An input buffer holding [l]. *)
Definition inbuf (l : list Z) (be : bool) : rbuf := RB l be false.

(** Writing with [enc] and reading with [dec] in byte order [be] transports [x]:
    the writer appends a fixed byte string [e], without fault, and the reader
    applied to [e] followed by anything yields [x], consumes exactly [e] and
    does not fault. *)
Definition transports {A} (be : bool) (enc : wbuf -> wbuf) (dec : rbuf -> A * rbuf) (x : A) : Prop :=
  exists e : list Z,
    (forall pre, enc (outbuf pre be) = outbuf (pre ++ e) be) /\
    (forall rest, dec (inbuf (e ++ rest) be) = (x, inbuf rest be)).

(** In addition, no strict prefix of the encoding is accepted. *)
Definition transports_strict {A} (be : bool) (enc : wbuf -> wbuf) (dec : rbuf -> A * rbuf) (x : A) : Prop :=
  exists e : list Z,
    (forall pre, enc (outbuf pre be) = outbuf (pre ++ e) be) /\
    (forall rest, dec (inbuf (e ++ rest) be) = (x, inbuf rest be)) /\
    (forall e1 e2, e = e1 ++ e2 -> e2 <> [] -> rerr (snd (dec (inbuf e1 be))) = true).

(** A decoder step from buffer [b] to buffer [b'] is safe: it consumed a prefix
    of the content, and if the buffer was faulted it stays faulted and nothing
    is consumed. *)
Definition safe_step (b b' : rbuf) : Prop :=
  (exists used, rd b = used ++ rd b') /\
  (rerr b = true -> rerr b' = true /\ rd b' = rd b).

(** The decoder only ever takes safe steps. *)
Definition safe_decoder {A} (dec : rbuf -> A * rbuf) : Prop :=
  forall b, safe_step b (snd (dec b)).

(** The protocol's byte representation of an unsigned integer: positional
    notation in base 256. *)
Definition digits_le (l : list Z) (v : Z) : Prop :=
  is_bytes l /\ v = fold_right (fun d acc => d + 256 * acc) 0 l.
Definition represents (be : bool) (n : nat) (v : Z) (l : list Z) : Prop :=
  length l = n /\ digits_le (if be then rev l else l) v.

(** An encoder step from [w] to [w'] is safe: it only appends, keeps the byte
    order, never uses more than the room which was left, and does nothing on a
    faulted buffer. *)
Definition safe_wstep (w w' : wbuf) : Prop :=
  exists e,
    wd w' = wd w ++ e /\ wbe w' = wbe w /\
    wroom w' = match wroom w with None => None | Some r => Some (r - zlen e) end /\
    (forall r, wroom w = Some r -> 0 <= r -> zlen e <= r) /\
    (werr w = true -> werr w' = true /\ e = []).
Definition safe_encoder (enc : wbuf -> wbuf) : Prop := forall w, safe_wstep w (enc w).

(** [w] without a limit on its size *)
Definition unlimited (w : wbuf) : wbuf := WB (wd w) None (wbe w) (werr w).

(** When writing to a limited buffer is not reported as a fault, the bytes are
    the same as written to an unlimited one. *)
Definition complete_encoder (enc : wbuf -> wbuf) : Prop :=
  forall w, werr (enc w) = false ->
    wd (enc w) = wd (enc (unlimited w)) /\ werr (enc (unlimited w)) = false.
