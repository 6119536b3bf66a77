(** What a receiver of messages over TCP should deliver. *)
From Coq Require Import ZArith List Bool.
From Verif Require Import Base ConnModel.
Import ListNotations.
Local Open Scope Z_scope.

(** A frame of the protocol: a control message, or an application message, whole or
    one segment of it. *)
Inductive segment := Whole | First | Middle | Last.
Inductive frame :=
| Control (ver cmd : Z) (be : bool) (data : Z)
| App (ver : Z) (be : bool) (seg : segment) (cmd : Z) (body : list Z).

(** a number of four bytes, most or least significant first *)
Definition u32 (be : bool) (n : Z) : list Z :=
  let l := [n mod 256; n / 256 mod 256; n / 65536 mod 256; n / 16777216 mod 256] in if be then rev l else l.
Definition seg_bits (s : segment) : Z := match s with Whole => 0 | First => 16 | Middle => 48 | Last => 32 end.
(** The bytes of a frame from a server, or from a client. *)
Definition frame_bytes (server : bool) (f : frame) : list Z :=
  let dir := if server then 64 else 0 in
  match f with
  | Control ver cmd be data => [202; ver; 1 + dir + (if be then 128 else 0); cmd] ++ u32 be data
  | App ver be seg cmd body => [202; ver; seg_bits seg + dir + (if be then 128 else 0); cmd] ++ u32 be (zlen body) ++ body
  end.
Definition stream (server : bool) (fs : list frame) : list Z := concat (map (frame_bytes server) fs).
Definition ok_frame (f : frame) : Prop :=
  match f with
  | Control ver cmd be data => ver <> 0 /\ 0 <= data < 2 ^ 32
  | App ver be seg cmd body => ver <> 0 /\ zlen body < 2 ^ 32
  end.

Definition is_app (f : frame) : bool := match f with App _ _ _ _ _ => true | _ => false end.
(** Control messages may come anywhere and are not delivered. *)
Definition apps (fs : list frame) : list frame := filter is_app fs.
Definition middle_of (cmd : Z) (f : frame) : Prop := match f with App _ _ Middle c _ => c = cmd | _ => False end.
Definition body_of (f : frame) : list Z := match f with App _ _ _ _ b => b | _ => [] end.

(** An opened message: its first segment and any number of middle ones, with the same command. *)
Inductive opened (cmd : Z) : list frame -> list Z -> Prop :=
| opened_intro v be b mid : Forall (middle_of cmd) mid ->
    opened cmd (App v be First cmd b :: mid) (b ++ concat (map body_of mid)).
(** The messages a list of frames is made of, all complete.  Version and byte order of
    a message in segments are those of the last. *)
Inductive made_of : list frame -> list msg -> Prop :=
| made_none : made_of [] []
| made_whole v be cmd b fs ms : made_of fs ms ->
    made_of (App v be Whole cmd b :: fs) ({| m_cmd := cmd; m_be := be; m_ver := v; m_body := b |} :: ms)
| made_parts v be cmd op b b' fs ms : opened cmd op b -> made_of fs ms ->
    made_of (op ++ App v be Last cmd b' :: fs) ({| m_cmd := cmd; m_be := be; m_ver := v; m_body := b ++ b' |} :: ms).

(** A frame which is out of place, when no message is open, and when one of command [cmd] is. *)
Definition out_of_place (f : frame) : Prop := match f with App _ _ Middle _ _ | App _ _ Last _ _ => True | _ => False end.
Definition interrupts (cmd : Z) (f : frame) : Prop :=
  match f with
  | App _ _ Whole _ _ | App _ _ First _ _ => True
  | App _ _ _ c _ => c <> cmd
  | Control _ _ _ _ => False
  end.

(** [a] is [b], or the start of it *)
Definition starts {A} (a b : list A) : Prop := exists r, b = a ++ r.

(** The application commands of the protocol a connection has a handler for: all up to CANCEL_REQUEST (21), but
    BEACON (0), ACL_CHANGE (6), ARRAY (14), PROCESS (16) and MULTIPLE_DATA (19). *)
Definition handled (cmd : Z) : bool := (1 <=? cmd) && (cmd <=? 21) && negb ((cmd =? 6) || (cmd =? 14) || (cmd =? 16) || (cmd =? 19)).
