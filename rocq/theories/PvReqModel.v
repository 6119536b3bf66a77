(** Model of field selection by a client request, src/pvrequest.cpp.

    No proofs in this file. *)
From Coq Require Import String ZArith List Bool.
From Verif Require Import Base WireModel BitMaskModel TypeModel TextModel ValueModel MarkModel.
Import ListNotations.
Local Open Scope Z_scope.

(** pvRequest["field"], src/pvrequest.cpp:15, for a request of which only the
    type matters: the nodes from the field found on.  None: not a Struct, or no
    such member.  (operator[] is src/data.cpp:783-858; the name has no special
    characters.) *)
Definition request_fields (req : list fdesc) : option (list fdesc) :=
  match req with
  | d :: _ =>
      if f_code d =? tc_Struct then
        match map_get (bs "field") (f_lookup d) with
        | Some i => Some (skipn i req)
        | None => None
        end
      else None
  | [] => None
  end.

Definition set_bits (m : bmask) (l : list nat) : option bmask := bm_set_all m (map Z.of_nat l).

(** the body of the loop, src/pvrequest.cpp:28-52, for the entry [(path, j)] of
    the request.  [desc]: the nodes of the type, [rdesc] those of the request.
    DUB: access outside the nodes or outside the mask. *)
Definition request_entry (desc rdesc : list fdesc) (e : str * nat) (st : bmask * bool) : dres (bmask * bool) :=
  let '(path, j) := e in
  let '(ret, found) := st in
  match nth_error rdesc j with
  | None => DUB
  | Some cr =>
      if f_code cr =? tc_Struct then
        match map_get path (f_lookup (first_node desc)) with
        | None => DOK (ret, found)
        | Some i =>
            match set_bits ret [i] with
            | None => DUB
            | Some ret1 =>
                if is_nil (f_lookup cr) then
                  match nth_error desc i with
                  | None => DUB
                  | Some cd =>
                      if f_code cd =? tc_Struct then
                        match set_bits ret1 (map (fun p => (i + snd p)%nat) (f_lookup cd)) with
                        | None => DUB
                        | Some ret2 => DOK (ret2, true)
                        end
                      else DOK (ret1, true)
                  end
                else DOK (ret1, true)
            end
        end
      else DOK (ret, found)
  end.
Fixpoint request_loop (desc rdesc : list fdesc) (l : list (str * nat)) (st : bmask * bool) : dres (bmask * bool) :=
  match l with
  | [] => DOK st
  | e :: l' =>
      match request_entry desc rdesc e st with
      | DOK st' => request_loop desc rdesc l' st'
      | r => r
      end
  end.

(** request2mask(), src/pvrequest.cpp:13-72 *)
Definition request2mask (desc : list fdesc) (req : list fdesc) : dres bmask :=
  let n := f_size (first_node desc) in
  match bm_init [0] (Z.of_nat n) with
  | None => DUB
  | Some ret0 =>
      let r :=
        match request_fields req with
        | None => DOK (ret0, true)
        | Some rdesc =>
            if f_code (first_node rdesc) =? tc_Struct then
              request_loop desc rdesc (f_lookup (first_node rdesc)) (ret0, is_nil (f_lookup (first_node rdesc)))
            else DOK (ret0, false)
        end in
      match r with
      | DOK (ret, found) =>
          if negb found then DThrow
          else
            match find_set ret 1 with
            | None => DUB
            | Some k =>
                if k =? bm_size ret then
                  match set_bits ret (seq 0 n) with Some ret' => DOK ret' | None => DUB end
                else DOK ret
            end
      | DThrow => DThrow | DUB => DUB | DFuel => DFuel
      end
  end.

(** testmask(), src/pvrequest.cpp:74-93, of a non-empty value; None: access
    outside the mask *)
Fixpoint testmask_loop (cells : list cell) (mask : bmask) (l : list nat) : option bool :=
  match l with
  | [] => Some false
  | i :: l' =>
      if marked_at cells i then
        match bm_get mask (Z.of_nat i) with
        | None => None
        | Some true => Some true
        | Some false => testmask_loop cells mask l'
        end
      else testmask_loop cells mask l'
  end.
Definition testmask (nodes : list fdesc) (cells : list cell) (mask : bmask) : option bool :=
  let d := first_node nodes in
  testmask_loop cells mask (0%nat :: if f_code d =? tc_Struct then seq 1 (f_size d - 1) else []).
