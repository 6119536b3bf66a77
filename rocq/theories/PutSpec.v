(** When the records of a PUT process. *)
From Coq Require Import String ZArith List Bool.
From Verif Require Import Base CopyModel GroupModel OpsModel OpsSpec.
Import ListNotations.
Local Open Scope Z_scope.

(** A write to channel [ch] of channel data [c] lets its record process: the field PROC; or the
    client asks for it; or it leaves the choice, the field is one which processes
    passive records, and the record is passive. *)
Definition due (w : world) (h : list act) (c : chan) (ch : str) (force : tri) : Prop :=
  ca_proc (w_attr w ch) = true \/ force = On \/
  (force = Unset /\ ca_passive (w_attr w ch) = true /\ w_scan w h (ch_record c) = true).
(** The calls to let the record process: none if not due; else one, by asking an active
    record to process again. *)
Definition processing (w : world) (h : list act) (c : chan) (ch : str) (force : tri) (d : list act) : Prop :=
  (~ due w h c ch force -> d = []) /\
  (due w h c ch force -> d = [if w_pact w h (ch_record c) then AReprocess (ch_record c) else AProcess (ch_record c)]).
(** What a PUT which succeeds calls for a field: for one which is sent and can be written, and
    for a Proc field, at most one write, then processing; nothing for others. *)
Definition field_calls (w : world) (v : sent) (force : tri) (h : list act) (f : cfield) (d : list act) : Prop :=
  match cf_chan f with
  | None => d = []
  | Some c =>
      (put_to v f \/ ftype f = MProc ->
         exists ws p, d = ws ++ p /\ (ws = [] \/ (put_to v f /\ exists x, ws = [AWrite (chan_name f) x])) /\
           (put_to v f -> carries (ftype f) -> ws <> [] \/ no_array (content v f)) /\
           processing w (h ++ ws) c (chan_name f) force p) /\
      (~ put_to v f -> ftype f <> MProc -> d = [])
  end.
(** one field after the other *)
Fixpoint in_turn (w : world) (v : sent) (force : tri) (h : list act) (l : list cfield) (d : list act) : Prop :=
  match l with
  | [] => d = []
  | f :: l' => exists d1 d2, d = d1 ++ d2 /\ field_calls w v force h f d1 /\ in_turn w v force (h ++ d1) l' d2
  end.
(** the same with a lock of each *)
Fixpoint in_turn_locked (w : world) (v : sent) (force : tri) (h : list act) (l : list cfield) (d : list act) : Prop :=
  match l with
  | [] => d = []
  | f :: l' =>
      match cf_chan f with
      | None => in_turn_locked w v force h l' d
      | Some c => exists d1 d2, let m := ALock [ch_record c] :: d1 ++ [AUnlock [ch_record c]] in
                  d = m ++ d2 /\ field_calls w v force (h ++ [ALock [ch_record c]]) f d1 /\ in_turn_locked w v force (h ++ m) l' d2
      end
  end.
(** What is sent to a single PV: its member value, or the index of an enum there. *)
Definition value_sent (v : sent) : sdata :=
  match sn_at v [bs "value"] with SStruct => sn_at v [bs "value"; bs "index"] | d => d end.
(** calls which let a record process *)
Definition processes (a : act) : Prop := match a with AProcess _ | AReprocess _ => True | _ => False end.
