(** Specification vocabulary: when is decoding independent of segmentation. *)
From Coq Require Import ZArith List Bool.
From Verif Require Import Base WireModel SegModel.
Import ListNotations.
Local Open Scope Z_scope.

(** The contiguous buffer with the same content, byte order and fault state. *)
Definition contiguous (e : ebuf) : rbuf := RB (econtent e) (ebe e) (eerr e).

(** A decoder of the model only accesses the buffer through ensure / read /
    consume / fault / byte order, i.e. is the contiguous run of a program. *)
Definition buffer_program {A} (dec : rbuf -> A * rbuf) (p : rprog A) : Prop :=
  forall b, run_flat p b = dec b.
Definition uses_buffer_api {A} (dec : rbuf -> A * rbuf) : Prop :=
  exists p, buffer_program dec p.

(** Running program [p] on segmented buffer [e] is indistinguishable from
    running it on the contiguous buffer with the same content. *)
Definition segmentation_invisible {A} (p : rprog A) : Prop :=
  forall mss e, let '(a, e') := run_seg mss p e in
    run_flat p (contiguous e) = (a, contiguous e').

(** A decoder which gives, on every segmented buffer and for every sequence of
    choices of libevent, the result, the unread remainder, the byte order and
    the fault state which it gives on the contiguous buffer. *)
Definition segment_independent {A} (dec : rbuf -> A * rbuf) : Prop :=
  exists p : rprog A, (forall b, run_flat p b = dec b) /\
    forall mss e, let '(a, e') := run_seg mss p e in dec (contiguous e) = (a, contiguous e').
