(** Model of what a SharedPV does with the GETs and PUTs of clients: SharedPV::buildMailbox(), buildReadonly(), the handlers of
    attach(), open(), close(), post() and fetch(), src/sharedpv.cpp.

    Simplifications.  All of it runs one call at a time, under Impl::lock or on the one worker of a server; the interleavings
    of posting and subscribing are in SharedPVModel.  Whether there are subscribers is a parameter of each post.  The type check of
    post() compares the types with [same], as assignment does.  Handlers of the user are "refuse" or "throw".  [fuel] bounds
    the nesting of values.

    No proofs in this file. *)
From Coq Require Import String ZArith List Bool.
From Verif Require Import Base WireModel TypeModel ValueModel MarkModel CopyModel LookupModel.
Import ListNotations.
Local Open Scope Z_scope.

(** What the client of a PUT or GET is told.  [ANone]: nothing, the ExecOp is destroyed without reply, for which
    ~ServerGPRExec() does nothing (src/serverget.cpp:272). *)
Inductive answer := ADone | AError | AValue (v : value) | ANone.
(** Impl::onPut: of buildMailbox(), src/sharedpv.cpp:111-136; of buildReadonly(), :138-147; none set; a function of the user
    which throws. *)
Inductive handler := HMailbox | HReadonly | HMissing | HThrows.

Section Box.
  Variable fuel : nat.
  Variable fp : fpu.
  Variable same : list fdesc -> list fdesc -> bool.

  (** v[name] = p for field [i] of [v]: Value::operator[], src/data.cpp:965-970, and copyIn(), src/data.cpp:535.  A name
      without "->" or "[" never leads into another value. *)
  Definition set_named (v : value) (i : nat) (name : str) (p : src) : rstat * value :=
    match lookup_expr fuel true name v i with
    | (v', At [] j) => let '(r, _, c) := copy_in fuel fp same (v_nodes v') (v_cells v') j p in (r, Val (v_nodes v') c)
    | (v', Gone) => (RNoField, v')
    | (v', Threw) => (RError, v')
    | (v', TFuel) => (RFuel, v')
    | (v', _) => (RUB, v')
    end.
  (** src/sharedpv.cpp:118-127.  [now]: the time of epicsTimeGetCurrent(), None if this fails.  The sum of two unsigned int wraps. *)
  Definition stamp (v : value) (now : option (Z * Z)) : rstat * value :=
    match lookup_expr fuel true (bs "timeStamp") v 0 with
    | (v', At [] k) =>
        match is_marked (v_nodes v') (v_cells v') k true true, now with
        | DOK false, Some (sec, nsec) =>
            match set_named v' k (bs "secondsPastEpoch") (PUInt ((sec + 631152000) mod 2 ^ 32)) with
            | (ROk, v2) => set_named v2 k (bs "nanoseconds") (PUInt nsec)
            | r => r
            end
        | DOK _, _ => (ROk, v')
        | DThrow, _ => (RError, v')
        | DUB, _ => (RUB, v')
        | DFuel, _ => (RFuel, v')
        end
    | (v', Gone) => (ROk, v')
    | (v', Threw) => (RError, v')
    | (v', TFuel) => (RFuel, v')
    | (v', _) => (RUB, v')
    end.
  (** SharedPV::post(), src/sharedpv.cpp:420-448: what happened, the current value, and what subscribers are sent. *)
  Definition post (subs : bool) (cur : option value) (v : value) : rstat * option value * option value :=
    match cur with
    | None => (RError, None, None)
    | Some (Val n c) =>
        if same n (v_nodes v) then
          match assign fuel fp same n c 0 v 0 with
          | (ROk, _, c') =>
              if subs then
                match clone fuel fp same v with
                | (ROk, w) => (ROk, Some (Val n c'), w)
                | (r, _) => (r, Some (Val n c'), None)
                end
              else (ROk, Some (Val n c'), None)
          | (r, _, c') => (r, Some (Val n c'), None)
          end
        else (RError, cur, None)
    end.
  (** onPut of attach() with its handler, src/sharedpv.cpp:208-230 *)
  Definition put (h : handler) (subs : bool) (cur : option value) (v : value) (now : option (Z * Z)) : answer * option value * option value :=
    match h with
    | HMailbox =>
        match stamp v now with
        | (ROk, v') =>
            match post subs cur v' with
            | (ROk, cur', w) => (ADone, cur', w)
            | (_, cur', w) => (ANone, cur', w)
            end
        | _ => (ANone, cur, None)
        end
    | HReadonly => (AError, cur, None)
    | HMissing => (AError, cur, None)
    | HThrows => (ANone, cur, None)
    end.
  (** onGet of attach(), src/sharedpv.cpp:188-206 *)
  Definition get (cur : option value) : answer :=
    match cur with
    | None => AError
    | Some v => match clone fuel fp same v with (ROk, Some w) => AValue w | _ => ANone end
    end.
  (** open(), src/sharedpv.cpp:349-388: None: throws *)
  Definition open (cur : option value) (v : value) : option value :=
    match cur, nth_error (v_nodes v) 0 with
    | None, Some d =>
        if f_code d =? tc_Struct then match clone fuel fp same v with (ROk, Some w) => Some w | _ => None end else None
    | _, _ => None
    end.

  (** A PV in use: what clients and the application do with it. *)
  Inductive call :=
  | CPut (v : value) (now : option (Z * Z)) (subs : bool)
  | CGet
  | CPost (v : value) (subs : bool).
  (** [ANone] for a post which throws, else [ADone] *)
  Definition act (h : handler) (cur : option value) (c : call) : option value * answer :=
    match c with
    | CPut v now subs => let '(a, cur', _) := put h subs cur v now in (cur', a)
    | CGet => (cur, get cur)
    | CPost v subs => match post subs cur v with (ROk, cur', _) => (cur', ADone) | (_, cur', _) => (cur', ANone) end
    end.
  Fixpoint acts (h : handler) (cur : option value) (l : list call) : option value * list answer :=
    match l with
    | [] => (cur, [])
    | c :: r => let '(cur', a) := act h cur c in let '(cur2, al) := acts h cur' r in (cur2, a :: al)
    end.
End Box.
