(** Model of the primitive wire codec: src/pvaproto.h, and the SockAddr codec of
    src/evhelper.cpp.

    No proofs in this file. *)
From Coq Require Import ZArith List Bool.
From Verif Require Import Base.
Import ListNotations.
Local Open Scope Z_scope.

(** ** Buffers *)

(** A buffer being read: src/pvaproto.h:33-97 (struct Buffer) with the
    contiguous refill() of FixedBuf (:100-111).  [rd] is the content of
    [pos, limit), [rbe] is Buffer::be, [rerr] is (err!=nullptr).
    Simplification: the file name and line recorded with the error are dropped. *)
Record rbuf := RB { rd : list Z; rbe : bool; rerr : bool }.

(** A buffer being written.  [wd] is everything written so far in order,
    [wroom] is the number of bytes which may still be written for FixedBuf
    (src/pvaproto.h:100-111), or None for the growing VectorOutBuf / EvOutBuf
    (src/evhelper.cpp:943-986).
    Simplification: memory allocation never fails. *)
Record wbuf := WB { wd : list Z; wroom : option Z; wbe : bool; werr : bool }.

(** Buffer::fault(), src/pvaproto.h:59-64.  Only the first fault is recorded;
    the flag is sticky. *)
Definition rfault (b : rbuf) : rbuf := RB (rd b) (rbe b) true.
Definition wfault (w : wbuf) : wbuf := WB (wd w) (wroom w) (wbe w) true.

(** Buffer::good(), src/pvaproto.h:65 *)
Definition rgood (b : rbuf) : bool := negb (rerr b).
Definition wgood (w : wbuf) : bool := negb (werr w).

(** Buffer::ensure(), src/pvaproto.h:70-72, for FixedBuf reading ... *)
Definition rensure (n : Z) (b : rbuf) : bool :=
  negb (rerr b) && (n <=? zlen (rd b)).
(** ... and for writing. *)
Definition wensure (n : Z) (w : wbuf) : bool :=
  negb (werr w) && match wroom w with None => true | Some r => n <=? r end.

(** Buffer::_skip() / pop() after ensure(), src/pvaproto.h:91-93 *)
Definition radvance (n : Z) (b : rbuf) : rbuf :=
  RB (skipn (Z.to_nat n) (rd b)) (rbe b) (rerr b).

(** Buffer::push() and raw stores after ensure(), src/pvaproto.h:90 *)
Definition wpush (l : list Z) (w : wbuf) : wbuf :=
  WB (wd w ++ l)
     (match wroom w with None => None | Some r => Some (r - zlen l) end)
     (wbe w) (werr w).

(** Buffer::skip() on a contiguous buffer, src/pvaproto.h:73-83: past the end,
    everything is consumed and refill() fails. *)
Definition rskip (n : Z) (b : rbuf) : rbuf :=
  if n <=? zlen (rd b) then radvance n b
  else RB [] (rbe b) true.

(** ** Fixed width scalars *)

(** Memory image of an unsigned value on a host: least significant byte first
    (hostBE = false) or most significant first (hostBE = true). *)
Fixpoint le_bytes (n : nat) (v : Z) : list Z :=
  match n with
  | O => []
  | S n' => v mod 256 :: le_bytes n' (v / 256)
  end.
Fixpoint le_val (l : list Z) : Z :=
  match l with
  | [] => 0
  | b :: l' => b + 256 * le_val l'
  end.
Definition mem_of (host : bool) (n : nat) (v : Z) : list Z :=
  if host then rev (le_bytes n v) else le_bytes n v.
Definition of_mem (host : bool) (l : list Z) : Z :=
  if host then le_val (rev l) else le_val l.

(** _to_wire<N>(), src/pvaproto.h:167-185 *)
Definition to_wire_mem (mem : list Z) (reverse : bool) (w : wbuf) : wbuf :=
  if negb (wensure (zlen mem) w) then wfault w
  else wpush (if reverse then rev mem else mem) w.

(** to_wire(scalar), src/pvaproto.h:212-231; [v] is the value as an unsigned
    integer of [n] bytes (signed and floating point values by their bit
    pattern).  The single byte overload (:223) is the case n=1. *)
Definition to_wire_u (host : bool) (n : nat) (v : Z) (w : wbuf) : wbuf :=
  to_wire_mem (mem_of host n (u_cast n v)) (xorb (wbe w) host) w.

(** _from_wire<N>(), src/pvaproto.h:187-205.  None when the buffer faulted and
    memory was not written. *)
Definition from_wire_mem (n : nat) (reverse : bool) (b : rbuf) : option (list Z) * rbuf :=
  if negb (rensure (Z.of_nat n) b) then (None, rfault b)
  else
    let mem := firstn n (rd b) in
    (Some (if reverse then rev mem else mem), radvance (Z.of_nat n) b).

(** from_wire(scalar), src/pvaproto.h:239-249.  [init] is the previous content
    of the destination, kept when the buffer is faulted. *)
Definition from_wire_u (host : bool) (n : nat) (init : Z) (b : rbuf) : Z * rbuf :=
  match from_wire_mem n (xorb (rbe b) host) b with
  | (Some mem, b') => (of_mem host mem, b')
  | (None, b') => (init, b')
  end.

(** Reading into a signed destination of the same width. *)
Definition from_wire_s (host : bool) (n : nat) (init : Z) (b : rbuf) : Z * rbuf :=
  match from_wire_mem n (xorb (rbe b) host) b with
  | (Some mem, b') => (s_cast n (of_mem host mem), b')
  | (None, b') => (init, b')
  end.

(** ** Size and Selector *)

(** size_t(-1), the "null" length *)
Definition size_null : Z := 2 ^ 64 - 1.

(** to_wire(Size), src/pvaproto.h:264-280 *)
Definition to_wire_size (host : bool) (sz : Z) (w : wbuf) : wbuf :=
  if negb (wensure 1 w) then wfault w
  else if sz <? 254 then wpush [sz mod 256] w
  else if sz <=? 0xffffffff then to_wire_u host 4 sz (wpush [254] w)
  else wfault w.

(** from_wire(Size), src/pvaproto.h:282-305 *)
Definition from_wire_size (host : bool) (init : Z) (allow_null : bool) (b : rbuf) : Z * rbuf :=
  if negb (rensure 1 b) then (init, rfault b)
  else
    let s := hd 0 (rd b) in
    let b1 := radvance 1 b in
    if s <? 254 then (s, b1)
    else if s =? 254 then from_wire_u host 4 0 b1
    else if (s =? 255) && allow_null then (size_null, b1)
    else (init, rfault b1).

(** to_wire(Selector), src/pvaproto.h:316-336 *)
Definition to_wire_sel (host : bool) (sel : Z) (w : wbuf) : wbuf :=
  if negb (wensure 1 w) then wfault w
  else if sel <=? -1 then wpush [255] w
  else if sel <? 254 then wpush [sel mod 256] w
  else if sel <=? 0xffffffff then to_wire_u host 4 sel (wpush [254] w)
  else wfault w.

(** from_wire(Selector), src/pvaproto.h:338-362 *)
Definition from_wire_sel (host : bool) (init : Z) (b : rbuf) : Z * rbuf :=
  if negb (rensure 1 b) then (init, rfault b)
  else
    let s := hd 0 (rd b) in
    let b1 := radvance 1 b in
    if s <? 254 then (s, b1)
    else if s =? 254 then from_wire_u host 4 0 b1
    else if s =? 255 then (-1, b1)
    else (init, rfault b1).

(** ** Strings *)

(** to_wire_str(), src/pvaproto.h:364-377, used for std::string (:385-388) *)
Definition to_wire_str (host : bool) (s : str) (w : wbuf) : wbuf :=
  let w1 := to_wire_size host (zlen s) w in
  if negb (wensure (zlen s) w1) then wfault w1
  else wpush s w1.

(** strlen() of a C string held in a std::string buffer: stops at the first NUL *)
Fixpoint c_str (s : str) : str :=
  match s with
  | [] => []
  | c :: s' => if c =? 0 then [] else c :: c_str s'
  end.

(** to_wire(const char * ), src/pvaproto.h:379-383 *)
Definition to_wire_cstr (host : bool) (s : str) (w : wbuf) : wbuf :=
  to_wire_str host (c_str s) w.

(** from_wire(std::string), src/pvaproto.h:390-405 *)
Definition from_wire_str (host : bool) (init : str) (b : rbuf) : str * rbuf :=
  let '(len, b1) := from_wire_size host 0 true b in
  if len =? size_null then ([], b1)
  else if negb (rensure len b1) then (init, rfault b1)
  else (firstn (Z.to_nat len) (rd b1), radvance len b1).

(** to_wire(initializer_list<uint8_t>), src/pvaproto.h:407-419 *)
Definition to_wire_bytes (l : list Z) (w : wbuf) : wbuf :=
  if negb (wensure (zlen l) w) then wfault w else wpush l w.

(** ** Status *)

(** struct Status, src/pvaproto.h:421-437.  [st_code] is the enumerator value:
    Ok=0 Warn=1 Error=2 Fatal=3. *)
Record status := Status { st_code : Z; st_msg : str; st_trace : str }.

Definition is_nil {A} (l : list A) : bool := match l with [] => true | _ => false end.

(** to_wire(Status), src/pvaproto.h:439-453 *)
Definition to_wire_status (host : bool) (s : status) (w : wbuf) : wbuf :=
  if negb (wensure 1 w) then wfault w
  else if (st_code s =? 0) && is_nil (st_msg s) && is_nil (st_trace s) then wpush [255] w
  else
    let w1 := wpush [st_code s mod 256] w in
    let w2 := to_wire_cstr host (st_msg s) w1 in
    to_wire_cstr host (st_trace s) w2.

(** from_wire(Status), src/pvaproto.h:455-472 *)
Definition from_wire_status (host : bool) (init : status) (b : rbuf) : status * rbuf :=
  if negb (rensure 1 b) then (init, rfault b)
  else if hd 0 (rd b) =? 255 then (Status 0 [] [], radvance 1 b)
  else
    let code := hd 0 (rd b) in
    let b1 := radvance 1 b in
    let '(msg, b2) := from_wire_str host (st_msg init) b1 in
    let '(trace, b3) := from_wire_str host (st_trace init) b2 in
    (Status code msg trace, b3).

(** Status::isSuccess(), src/pvaproto.h:431 *)
Definition status_success (s : status) : bool := (st_code s =? 0) || (st_code s =? 1).

(** ** Arrays *)

(** to_wire<E,C>() for fixed size elements on a growing or sufficiently large
    contiguous buffer, src/pvaproto.h:474-512.  Elements are given by their
    unsigned bit patterns.  The slice by slice copy loop (:486-512) is modelled
    in SegModel.v; here the copy is element by element. *)
Fixpoint to_wire_elems (host : bool) (n : nat) (l : list Z) (w : wbuf) : wbuf :=
  match l with
  | [] => w
  | v :: l' => to_wire_elems host n l' (to_wire_u host n v w)
  end.
Definition to_wire_pod (host : bool) (n : nat) (l : list Z) (w : wbuf) : wbuf :=
  to_wire_elems host n l (to_wire_size host (zlen l) w).

(** from_wire<E,C>() for fixed size elements, src/pvaproto.h:522-561.  After a
    fault the remaining elements keep their initial value (zero) and the copy
    loop is left (:536-539). *)
Fixpoint from_wire_elems (host : bool) (n : nat) (count : nat) (b : rbuf) : list Z * rbuf :=
  match count with
  | O => ([], b)
  | S c =>
      if negb (rensure (Z.of_nat n) b) then (repeat 0 (S c), rfault b)
      else
        let '(v, b1) := from_wire_u host n 0 b in
        let '(l, b2) := from_wire_elems host n c b1 in
        (v :: l, b2)
  end.
Definition from_wire_pod (host : bool) (n : nat) (b : rbuf) : list Z * rbuf :=
  let '(len, b1) := from_wire_size host 0 false b in
  from_wire_elems host n (Z.to_nat len) b1.

(** the same with std::string elements, src/pvaproto.h:514-519 and :563-569.
    When a fault occurs the loop goes on, each element staying empty. *)
Fixpoint to_wire_strs (host : bool) (l : list str) (w : wbuf) : wbuf :=
  match l with
  | [] => w
  | s :: l' => to_wire_strs host l' (to_wire_str host s w)
  end.
Definition to_wire_stra (host : bool) (l : list str) (w : wbuf) : wbuf :=
  to_wire_strs host l (to_wire_size host (zlen l) w).
Fixpoint from_wire_strs (host : bool) (count : nat) (b : rbuf) : list str * rbuf :=
  match count with
  | O => ([], b)
  | S c =>
      let '(s, b1) := from_wire_str host [] b in
      let '(l, b2) := from_wire_strs host c b1 in
      (s :: l, b2)
  end.
Definition from_wire_stra (host : bool) (b : rbuf) : list str * rbuf :=
  let '(len, b1) := from_wire_size host 0 false b in
  from_wire_strs host (Z.to_nat len) b1.

(** ** Message header *)

(** struct Header, src/pvaproto.h:653-661; pva_flags :594-604 *)
Record header := Header { h_cmd : Z; h_flags : Z; h_version : Z; h_len : Z }.
Definition flag_Server : Z := 0x40.
Definition flag_MSB : Z := 0x80.
Definition flag_Control : Z := 0x01.
Definition flag_SegFirst : Z := 0x10.
Definition flag_SegLast : Z := 0x20.
Definition flag_SegMask : Z := 0x30.

(** to_wire(Header), src/pvaproto.h:663-679.  pva_version::server and
    pva_version::client are both 2 (:580-585). *)
Definition to_wire_header (host : bool) (h : header) (w : wbuf) : wbuf :=
  if negb (wensure 8 w) then wfault w
  else
    let ver := if negb (Z.land (h_flags h) flag_Server =? 0) then 2 else 2 in
    let fl := if wbe w then Z.lor (h_flags h) flag_MSB else h_flags h in
    to_wire_u host 4 (h_len h) (wpush [0xca; ver; fl; h_cmd h] w).

(** from_wire(Header), src/pvaproto.h:683-698.  Also sets Buffer::be. *)
Definition from_wire_header (host : bool) (init : header) (b : rbuf) : header * rbuf :=
  if negb (rensure 8 b) || negb (nth 0 (rd b) 0 =? 0xca) || (nth 1 (rd b) 0 =? 0)
  then (init, rfault b)
  else
    let cmd := nth 3 (rd b) 0 in
    let flags := nth 2 (rd b) 0 in
    let version := nth 1 (rd b) 0 in
    let be := negb (Z.land flags flag_MSB =? 0) in
    let b1 := rskip 4 (RB (rd b) be (rerr b)) in
    let '(len, b2) := from_wire_u host 4 (h_len init) b1 in
    (Header cmd flags version len, b2).

(** ** Socket addresses *)

(** SockAddr content relevant to the wire: no address (AF_UNSPEC), an IPv4
    address as its 4 bytes in network order, or an IPv6 address as 16 bytes.
    The port is transmitted separately. *)
Inductive sockaddr := SA_unspec | SA_in (a : list Z) | SA_in6 (a : list Z).

(** to_wire(SockAddr), src/evhelper.cpp:887-905.  With neither family the 16
    bytes are skipped without being written; the model writes [junk], the
    previous content of the buffer. *)
Definition to_wire_addr (junk : list Z) (a : sockaddr) (w : wbuf) : wbuf :=
  if negb (wensure 16 w) then wfault w
  else match a with
  | SA_in q => wpush (repeat 0 10 ++ [0xff; 0xff] ++ q) w
  | SA_in6 q => wpush q w
  | SA_unspec => wpush junk w
  end.

(** from_wire(SockAddr), src/evhelper.cpp:907-934 *)
Definition from_wire_addr (init : sockaddr) (b : rbuf) : sockaddr * rbuf :=
  if negb (rensure 16 b) then (init, rfault b)
  else
    let a := firstn 16 (rd b) in
    let mapped := forallb (fun x => x =? 0) (firstn 10 a)
                  && (nth 10 a 0 =? 0xff) && (nth 11 a 0 =? 0xff) in
    (if mapped then SA_in (skipn 12 a) else SA_in6 a, radvance 16 b).
