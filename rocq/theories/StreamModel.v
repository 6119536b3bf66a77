(** Model of what a client delivers of the successive replies to one operation: decoding (MsgModel) followed by
    cache_sync() with the prototype kept for the operation (CopyModel).

    Simplification.  The Value decoded into is new; the code may take one from a free list, which Value::clear() has made as new
    (src/clientmon.cpp:499-535).

    No proofs in this file. *)
From Coq Require Import ZArith List Bool.
From Verif Require Import Base WireModel BitMaskModel TypeModel ValueModel CopyModel MsgModel.
Import ListNotations.
Local Open Scope Z_scope.

Definition got (r : reply) : option value :=
  match r with AGpr _ _ _ _ v | AMon _ _ _ v _ => v | _ => None end.

(** One reply: Connection::handle_MONITOR(), src/clientmon.cpp:464-561, or Connection::handle_GPR(), src/clientget.cpp:392-454.
    Gives the prototype afterwards, what is delivered, and the cache of types; None: nothing is delivered. *)
Definition receive (cmd : Z) (junk : Z * status) (others : Z -> option rinfo) (be : bool) (fuel : nat) (fp : fpu) (same : list fdesc -> list fdesc -> bool)
  (host : bool) (ioid : Z) (p : value) (ts : tstore) (body : list Z) : option (value * value * tstore) :=
  match client_reads cmd junk (fun i => if i =? ioid then Some {| ri_proto := Some p; ri_fl := true |} else others i) be fuel host ts body with
  | DOK (Took r, ts') =>
      match got r with
      | Some d =>
          match cache_sync fuel fp same (v_cells p) (v_cells d) with
          | (ROk, cells, delta) => Some (Val (v_nodes p) cells, Val (v_nodes d) delta, ts')
          | _ => None
          end
      | None => None
      end
  | _ => None
  end.
(** Successive replies to one operation; the values delivered. *)
Fixpoint deliver (cmd : Z) (junk : Z * status) (others : Z -> option rinfo) (be : bool) (fuel : nat) (fp : fpu) (same : list fdesc -> list fdesc -> bool)
  (host : bool) (ioid : Z) (p : value) (ts : tstore) (bodies : list (list Z)) : option (list value) :=
  match bodies with
  | [] => Some []
  | body :: rest =>
      match receive cmd junk others be fuel fp same host ioid p ts body with
      | Some (p', d, ts') => option_map (cons d) (deliver cmd junk others be fuel fp same host ioid p' ts' rest)
      | None => None
      end
  end.
