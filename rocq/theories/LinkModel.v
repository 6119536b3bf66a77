(** PVA links: fields of records which read from and write to PVs, ioc/pvalink*.cpp.

    Records are numbered.  What a record does when it is processed is outside: it
    comes back as further events.

    Simplifications.  A Value is a partial map from paths to fields; the content of
    an Any is at the path followed by "->".  The name of a field of a link is split at
    dots only (Value::operator[] is LookupModel).  A callback, a call from a record
    and a turn of the worker "pvxlink" are one step each: pvaLinkChannel::lock is held
    for nearly all of each of them.  What may go wrong with that lock is not part of this model.
    The queue of a subscription has no bound (ClientMonModel has it).  Conversions on
    assignment to the value of a PUT are those of CopyModel and are not repeated.
    Links of equal monorder are taken in the order of their numbers; in the code that
    of their addresses.  Logging and counters are left out.

    No proofs in this file. *)
From Coq Require Import String ZArith List Bool Arith.
From Verif Require Import Base WireModel TypeModel TextModel ValueModel CopyModel NtModel GroupModel.
Import ListNotations.
Local Open Scope Z_scope.

(** ** Options, ioc/pvalink_jlif.cpp *)

(** pvaLinkConfig, ioc/pvalink.h:62-103 *)
Inductive proc := NPP | PDefault | PP | CP | CPP.
Inductive msev := NMS | MS | MSI.
Record conf := {
  cf_name : str; cf_field : str; cf_queue : Z; cf_proc : proc; cf_sevr : msev; cf_defer : bool; cf_pipeline : bool;
  cf_time : bool; cf_retry : bool; cf_local : bool; cf_always : bool; cf_atomic : bool; cf_order : Z }.
Definition conf0 : conf :=
  {| cf_name := []; cf_field := []; cf_queue := 4; cf_proc := PDefault; cf_sevr := NMS; cf_defer := false; cf_pipeline := false;
     cf_time := false; cf_retry := false; cf_local := false; cf_always := false; cf_atomic := false; cf_order := 0 |}.
Definition with_name (s : str) (c : conf) := {| cf_name := s; cf_field := cf_field c; cf_queue := cf_queue c; cf_proc := cf_proc c; cf_sevr := cf_sevr c; cf_defer := cf_defer c; cf_pipeline := cf_pipeline c; cf_time := cf_time c; cf_retry := cf_retry c; cf_local := cf_local c; cf_always := cf_always c; cf_atomic := cf_atomic c; cf_order := cf_order c |}.
Definition with_field (s : str) (c : conf) := {| cf_name := cf_name c; cf_field := s; cf_queue := cf_queue c; cf_proc := cf_proc c; cf_sevr := cf_sevr c; cf_defer := cf_defer c; cf_pipeline := cf_pipeline c; cf_time := cf_time c; cf_retry := cf_retry c; cf_local := cf_local c; cf_always := cf_always c; cf_atomic := cf_atomic c; cf_order := cf_order c |}.
Definition with_queue (z : Z) (c : conf) := {| cf_name := cf_name c; cf_field := cf_field c; cf_queue := z; cf_proc := cf_proc c; cf_sevr := cf_sevr c; cf_defer := cf_defer c; cf_pipeline := cf_pipeline c; cf_time := cf_time c; cf_retry := cf_retry c; cf_local := cf_local c; cf_always := cf_always c; cf_atomic := cf_atomic c; cf_order := cf_order c |}.
Definition with_proc (p : proc) (c : conf) := {| cf_name := cf_name c; cf_field := cf_field c; cf_queue := cf_queue c; cf_proc := p; cf_sevr := cf_sevr c; cf_defer := cf_defer c; cf_pipeline := cf_pipeline c; cf_time := cf_time c; cf_retry := cf_retry c; cf_local := cf_local c; cf_always := cf_always c; cf_atomic := cf_atomic c; cf_order := cf_order c |}.
Definition with_sevr (m : msev) (c : conf) := {| cf_name := cf_name c; cf_field := cf_field c; cf_queue := cf_queue c; cf_proc := cf_proc c; cf_sevr := m; cf_defer := cf_defer c; cf_pipeline := cf_pipeline c; cf_time := cf_time c; cf_retry := cf_retry c; cf_local := cf_local c; cf_always := cf_always c; cf_atomic := cf_atomic c; cf_order := cf_order c |}.
Definition with_flags (defer pipeline time retry local always atomic : bool) (c : conf) := {| cf_name := cf_name c; cf_field := cf_field c; cf_queue := cf_queue c; cf_proc := cf_proc c; cf_sevr := cf_sevr c; cf_defer := defer; cf_pipeline := pipeline; cf_time := time; cf_retry := retry; cf_local := local; cf_always := always; cf_atomic := atomic; cf_order := cf_order c |}.
Definition with_order (z : Z) (c : conf) := {| cf_name := cf_name c; cf_field := cf_field c; cf_queue := cf_queue c; cf_proc := cf_proc c; cf_sevr := cf_sevr c; cf_defer := cf_defer c; cf_pipeline := cf_pipeline c; cf_time := cf_time c; cf_retry := cf_retry c; cf_local := cf_local c; cf_always := cf_always c; cf_atomic := cf_atomic c; cf_order := z |}.

(** What the parser of EPICS Base (dbJLink.c) calls.  parseDepth, kept by Base, is the
    number of maps which are open.  Numbers with a decimal point, and lists, have no
    function here and end parsing with an error; they are left out. *)
Inductive jcall := JNull | JBool (b : bool) | JInt (z : Z) | JStr (s : str) | JStart | JKey (s : str) | JEnd.
Record pst := { ps_depth : nat; ps_key : str; ps_conf : conf }.
Definition is (s : str) (k : string) : bool := str_eqb s (bs k).
(** pva_parse_null(), :65-84 *)
Definition set_null (k : str) (c : conf) : conf :=
  if is k "proc" then with_proc PDefault c
  else if is k "sevr" then with_sevr NMS c
  else if is k "local" then with_flags (cf_defer c) (cf_pipeline c) (cf_time c) (cf_retry c) false (cf_always c) (cf_atomic c) c
  else c.
(** pva_parse_bool(), :86-118 *)
Definition set_bool (k : str) (b : bool) (c : conf) : conf :=
  if is k "proc" then with_proc (if b then PP else NPP) c
  else if is k "sevr" then with_sevr (if b then MS else NMS) c
  else if is k "defer" then with_flags b (cf_pipeline c) (cf_time c) (cf_retry c) (cf_local c) (cf_always c) (cf_atomic c) c
  else if is k "pipeline" then with_flags (cf_defer c) b (cf_time c) (cf_retry c) (cf_local c) (cf_always c) (cf_atomic c) c
  else if is k "time" then with_flags (cf_defer c) (cf_pipeline c) b (cf_retry c) (cf_local c) (cf_always c) (cf_atomic c) c
  else if is k "retry" then with_flags (cf_defer c) (cf_pipeline c) (cf_time c) b (cf_local c) (cf_always c) (cf_atomic c) c
  else if is k "local" then with_flags (cf_defer c) (cf_pipeline c) (cf_time c) (cf_retry c) b (cf_always c) (cf_atomic c) c
  else if is k "always" then with_flags (cf_defer c) (cf_pipeline c) (cf_time c) (cf_retry c) (cf_local c) b (cf_atomic c) c
  else if is k "atomic" then with_flags (cf_defer c) (cf_pipeline c) (cf_time c) (cf_retry c) (cf_local c) (cf_always c) b c
  else c.
(** pva_parse_integer(), :120-137; int(val) of a long long *)
Definition set_int (k : str) (z : Z) (c : conf) : conf :=
  if is k "Q" then with_queue (if z <? 1 then 1 else z) c
  else if is k "monorder" then with_order (Z.max (-1024) (Z.min (s_cast 4 z) 1024)) c
  else c.
(** pva_parse_string(), :146-188 *)
Definition set_str (k : str) (s : str) (c : conf) : conf :=
  if is k "field" then with_field s c
  else if is k "proc" then
    (if is_nil s then with_proc PDefault c else if is s "CP" then with_proc CP c else if is s "CPP" then with_proc CPP c
     else if is s "PP" then with_proc PP c else if is s "NPP" then with_proc NPP c else c)
  else if is k "sevr" then
    (if is s "NMS" then with_sevr NMS c else if is s "MS" then with_sevr MS c else if is s "MSI" then with_sevr MSI c
     else if is s "MSS" then with_sevr MS c else c)
  else c.
Definition parse_call (p : pst) (j : jcall) : pst :=
  let d := ps_depth p in
  let value (f : conf -> conf) := {| ps_depth := d; ps_key := []; ps_conf := if Nat.eqb d 1 then f (ps_conf p) else ps_conf p |} in
  match j with
  | JNull => value (set_null (ps_key p))
  | JBool b => value (set_bool (ps_key p) b)
  | JInt z => value (set_int (ps_key p) z)
  | JStr s => (* :143-144 *)
      if Nat.eqb d 0 || Nat.eqb d 1 && is (ps_key p) "pv"
      then {| ps_depth := d; ps_key := []; ps_conf := with_name s (ps_conf p) |}
      else value (set_str (ps_key p) s)
  | JStart => {| ps_depth := S d; ps_key := ps_key p; ps_conf := ps_conf p |}
  | JKey k => {| ps_depth := d; ps_key := k; ps_conf := ps_conf p |}
  | JEnd => {| ps_depth := pred d; ps_key := ps_key p; ps_conf := ps_conf p |}
  end.
Definition parse (l : list jcall) : conf := ps_conf (fold_left parse_call l {| ps_depth := 0; ps_key := []; ps_conf := conf0 |}).

(** ** Values *)

(** A field: its type, the name of its type, and its content *)
Record node := { nd_code : Z; nd_id : str; nd_data : src }.
Definition img := list str -> option node.
(** what pop() gives: a Value with marks *)
Record update := { up_img : img; up_marked : list str -> bool }.
(** root.assign(top), ioc/pvalink_channel.cpp:355, of the same type (CopyModel, C21) *)
Definition merge (i : img) (u : update) : img := fun p =>
  match i p with
  | Some n => if up_marked u p
              then match up_img u p with
                   | Some m => Some {| nd_code := nd_code n; nd_id := nd_id n; nd_data := nd_data m |}
                   | None => Some n
                   end
              else Some n
  | None => None
  end.
Fixpoint split_dot (s : str) : list str :=
  match s with
  | [] => [[]]
  | c :: s' => if c =? 46 then [] :: split_dot s'
               else match split_dot s' with w :: l => (c :: w) :: l | [] => [[c]] end
  end.
Definition path_of (s : str) : list str := if is_nil s then [] else split_dot s.

(** ** State *)

(** data given by a record for a PUT: numbers of a type, or strings *)
Inductive pdata := DNums (t : dbr) (l : list Z) | DTexts (l : list str).
(** A reference to a field: in which of the Values which a channel has had as root *)
Definition ref := (nat * list str)%type.
(** kind of field of the record: DBF_INLINK, DBF_OUTLINK, DBF_FWDLINK *)
Inductive kind := KIn | KOut | KFwd.
(** pvaLink, ioc/pvalink.h:219-248.  [l_scratch] and [l_queue] are put_scratch and put_queue
    while used_scratch and used_queue are set. *)
Record link := {
  l_conf : conf; l_kind : kind; l_rec : nat; l_chan : option nat; l_scratch : option pdata; l_queue : option pdata;
  f_value : option ref; f_sec : option ref; f_nsec : option ref; f_sevr : option ref; f_msg : option ref; f_meta : option ref;
  s_time : Z * Z; s_sevr : Z; s_msg : str }.
(** events of a subscription: an update, client::Disconnect (also Finished) with its time,
    another exception *)
Inductive mev := MUpdate (u : update) | MDisconnect (sec nsec : Z) | MError.
(** record._options.process of a PUT *)
Inductive pmode := MPassive | MTrue | MFalse.
(** the PUT in progress: whether linkBuildPut() was called, and its options *)
Record putop := { po_built : bool; po_block : bool; po_mode : pmode }.
(** pvaLinkChannel, ioc/pvalink.h:146-217.  [k_events], [k_notify]: queue and needNotify of
    op_mon (src/clientmon.cpp:73-100, :190-200); root is the last of [k_roots]. *)
Definition key := (str * (bool * Z))%type.
Record lchan := {
  k_key : key; k_open : bool; k_events : list mev; k_notify : bool; k_roots : list img; k_conn : bool;
  k_links : list nat; k_changed : bool; k_atomic : list (nat * bool); k_other : list (nat * bool);
  k_put : option putop; k_after : list nat }.
(** fields of a record: PACT, and whether SCAN is Passive *)
Record recd := { r_pact : bool; r_passive : bool }.
Inductive task := TRun (c : nat) | TAfter (c : nat).
(** bytes given to a record: nothing written, zeros, numbers, strings *)
Inductive buffer := BNone | BZero | BNums (t : dbr) (l : list Z) | BTexts (l : list str).
Inductive status := SOk | SFail | SBadType.
(** what is given to a field by a PUT: an array, or the first element *)
Inductive pitem := IArray (d : pdata) | IFirst (d : pdata).
Inductive out :=
| OEvent (c : nat) (e : mev)                                    (* taken from the queue by the worker *)
| OLock (rs : list nat) | OUnlock (rs : list nat)
| OProc (r : nat) | OReproc (r : nat)                           (* dbProcess(); RPRO set *)
| OScanOnce (r : nat)
| OSub (c : nat) (k : key)                                      (* subscription started *)
| OStart (c : nat) (m : pmode) (block : bool)                   (* PUT started *)
| OSend (c : nat) (l : list (list str * pitem))                 (* value of a PUT *)
| OComplete (r : nat) | ONotActive (r : nat)                    (* end of asynchronous processing *)
| OGet (l : nat) (st : status) (b : buffer) (n : Z)
| OSevr (r : nat) (s : Z)                                       (* recGblSetSevr(LINK_ALARM, s) *)
| OTime (r : nat) (t : Z * Z)                                   (* TIME of the record *)
| OPut (l : nat) (st : status).
Record ctx := {
  x_running : bool; x_links : nat -> option link; x_chans : nat -> option lchan; x_keys : list (key * nat); x_nc : nat;
  x_tasks : list task; x_recs : nat -> recd; x_out : list out }.

Definition set_links (f : nat -> option link) (x : ctx) := {| x_running := x_running x; x_links := f; x_chans := x_chans x; x_keys := x_keys x; x_nc := x_nc x; x_tasks := x_tasks x; x_recs := x_recs x; x_out := x_out x |}.
Definition set_link (i : nat) (l : option link) (x : ctx) := set_links (fun j => if Nat.eqb j i then l else x_links x j) x.
Definition set_chan (i : nat) (c : option lchan) (x : ctx) := {| x_running := x_running x; x_links := x_links x; x_chans := fun j => if Nat.eqb j i then c else x_chans x j; x_keys := x_keys x; x_nc := x_nc x; x_tasks := x_tasks x; x_recs := x_recs x; x_out := x_out x |}.
Definition set_keys (k : list (key * nat)) (n : nat) (x : ctx) := {| x_running := x_running x; x_links := x_links x; x_chans := x_chans x; x_keys := k; x_nc := n; x_tasks := x_tasks x; x_recs := x_recs x; x_out := x_out x |}.
Definition set_tasks (t : list task) (x : ctx) := {| x_running := x_running x; x_links := x_links x; x_chans := x_chans x; x_keys := x_keys x; x_nc := x_nc x; x_tasks := t; x_recs := x_recs x; x_out := x_out x |}.
Definition set_rec (i : nat) (r : recd) (x : ctx) := {| x_running := x_running x; x_links := x_links x; x_chans := x_chans x; x_keys := x_keys x; x_nc := x_nc x; x_tasks := x_tasks x; x_recs := fun j => if Nat.eqb j i then r else x_recs x j; x_out := x_out x |}.
Definition set_running (x : ctx) := {| x_running := true; x_links := x_links x; x_chans := x_chans x; x_keys := x_keys x; x_nc := x_nc x; x_tasks := x_tasks x; x_recs := x_recs x; x_out := x_out x |}.
Definition emit (o : list out) (x : ctx) := {| x_running := x_running x; x_links := x_links x; x_chans := x_chans x; x_keys := x_keys x; x_nc := x_nc x; x_tasks := x_tasks x; x_recs := x_recs x; x_out := x_out x ++ o |}.

Definition l_with_chan (c : option nat) (l : link) := {| l_conf := l_conf l; l_kind := l_kind l; l_rec := l_rec l; l_chan := c; l_scratch := l_scratch l; l_queue := l_queue l; f_value := f_value l; f_sec := f_sec l; f_nsec := f_nsec l; f_sevr := f_sevr l; f_msg := f_msg l; f_meta := f_meta l; s_time := s_time l; s_sevr := s_sevr l; s_msg := s_msg l |}.
Definition l_with_put (s q : option pdata) (l : link) := {| l_conf := l_conf l; l_kind := l_kind l; l_rec := l_rec l; l_chan := l_chan l; l_scratch := s; l_queue := q; f_value := f_value l; f_sec := f_sec l; f_nsec := f_nsec l; f_sevr := f_sevr l; f_msg := f_msg l; f_meta := f_meta l; s_time := s_time l; s_sevr := s_sevr l; s_msg := s_msg l |}.
Definition l_with_fld (v s n e m a : option ref) (l : link) := {| l_conf := l_conf l; l_kind := l_kind l; l_rec := l_rec l; l_chan := l_chan l; l_scratch := l_scratch l; l_queue := l_queue l; f_value := v; f_sec := s; f_nsec := n; f_sevr := e; f_msg := m; f_meta := a; s_time := s_time l; s_sevr := s_sevr l; s_msg := s_msg l |}.
Definition l_with_snap (t : Z * Z) (s : Z) (m : str) (l : link) := {| l_conf := l_conf l; l_kind := l_kind l; l_rec := l_rec l; l_chan := l_chan l; l_scratch := l_scratch l; l_queue := l_queue l; f_value := f_value l; f_sec := f_sec l; f_nsec := f_nsec l; f_sevr := f_sevr l; f_msg := f_msg l; f_meta := f_meta l; s_time := t; s_sevr := s; s_msg := m |}.
Definition k_with_open (b : bool) (k : lchan) := {| k_key := k_key k; k_open := b; k_events := k_events k; k_notify := k_notify k; k_roots := k_roots k; k_conn := k_conn k; k_links := k_links k; k_changed := k_changed k; k_atomic := k_atomic k; k_other := k_other k; k_put := k_put k; k_after := k_after k |}.
Definition k_with_events (e : list mev) (n : bool) (k : lchan) := {| k_key := k_key k; k_open := k_open k; k_events := e; k_notify := n; k_roots := k_roots k; k_conn := k_conn k; k_links := k_links k; k_changed := k_changed k; k_atomic := k_atomic k; k_other := k_other k; k_put := k_put k; k_after := k_after k |}.
Definition k_with_root (r : list img) (b : bool) (k : lchan) := {| k_key := k_key k; k_open := k_open k; k_events := k_events k; k_notify := k_notify k; k_roots := r; k_conn := b; k_links := k_links k; k_changed := k_changed k; k_atomic := k_atomic k; k_other := k_other k; k_put := k_put k; k_after := k_after k |}.
Definition k_with_links (l : list nat) (b : bool) (k : lchan) := {| k_key := k_key k; k_open := k_open k; k_events := k_events k; k_notify := k_notify k; k_roots := k_roots k; k_conn := k_conn k; k_links := l; k_changed := b; k_atomic := k_atomic k; k_other := k_other k; k_put := k_put k; k_after := k_after k |}.
Definition k_with_scan (a o : list (nat * bool)) (k : lchan) := {| k_key := k_key k; k_open := k_open k; k_events := k_events k; k_notify := k_notify k; k_roots := k_roots k; k_conn := k_conn k; k_links := k_links k; k_changed := false; k_atomic := a; k_other := o; k_put := k_put k; k_after := k_after k |}.
Definition k_with_put (p : option putop) (a : list nat) (k : lchan) := {| k_key := k_key k; k_open := k_open k; k_events := k_events k; k_notify := k_notify k; k_roots := k_roots k; k_conn := k_conn k; k_links := k_links k; k_changed := k_changed k; k_atomic := k_atomic k; k_other := k_other k; k_put := p; k_after := a |}.

(** ** Reading, ioc/pvalink_lset.cpp *)

Definition look (k : lchan) (r : option ref) : option node :=
  match r with Some (g, p) => match nth_error (k_roots k) g with Some i => i p | None => None end | None => None end.
(** pvaLink::valid(), ioc/pvalink_link.cpp:69-72 *)
Definition valid (k : lchan) : bool := k_conn k && negb (is_nil (k_roots k)).
(** pvaLink::onTypeChange(), :83-111: [f_sec] is not cleared at first *)
Definition type_change (k : lchan) (l : link) : link :=
  let g := pred (length (k_roots k)) in
  let i := match nth_error (k_roots k) g with Some i => i | None => fun _ => None end in
  let p := path_of (cf_field (l_conf l)) in
  let at_ (q : list str) : option ref := match i (p ++ q) with Some _ => Some (g, p ++ q) | None => None end in
  match i p with
  | None => l_with_fld None (f_sec l) None None None None l
  | Some n =>
      if nd_code n =? tc_Struct
      then l_with_fld (at_ [bs "value"]) (at_ [bs "timeStamp"; bs "secondsPastEpoch"]) (at_ [bs "timeStamp"; bs "nanoseconds"])
             (at_ [bs "alarm"; bs "severity"]) (at_ [bs "alarm"; bs "message"]) (Some (g, p)) l
      else l_with_fld (Some (g, p)) (f_sec l) None None None None l
  end.

(** value.as<T>() of a field which is not a structure: by C++ type *)
Definition as_z (fp : fpu) (p : src) (w : want) : cv Z :=
  match out_leaf fp p w with
  | CV (PReal z) | CV (PInt z) | CV (PUInt z) => CV z
  | CV _ => CFail RNoConvert
  | CFail r => CFail r
  end.
Definition cv_map {A B} (f : A -> B) (r : cv A) : cv B := match r with CV a => CV (f a) | CFail e => CFail e end.
(** what strncpy(, 39) and a NUL leave in 40 bytes *)
Definition fits40 (s : str) : str := firstn 39 (c_str s).
(** a plain scalar, :340-364 *)
Definition read_scalar (fp : fpu) (t : dbr) (p : src) : option (cv buffer) :=
  let int n := Some (cv_map (fun z => BNums t [s_cast n z]) (as_z fp p WInt)) in
  let uint n := Some (cv_map (fun z => BNums t [u_cast n z]) (as_z fp p WUInt)) in
  match t with
  | DChar => int 1%nat | DShort => int 2%nat | DLong => int 4%nat | DInt64 => int 8%nat
  | DUChar => uint 1%nat | DUShort => uint 2%nat | DULong => uint 4%nat | DUInt64 => uint 8%nat
  | DFloat => Some (cv_map (fun z => BNums t [fp_narrow fp z]) (as_z fp p WReal))
  | DDouble => Some (cv_map (fun z => BNums t [z]) (as_z fp p WReal))
  | DString => Some (cv_map (fun s => BTexts [fits40 s]) (to_text fp p))
  | DEnum | DNoAccess => None
  end.
(** enum_t, :308-338 *)
Definition read_enum (fp : fpu) (t : dbr) (index : Z) (choices : option (list str)) : option (cv buffer) :=
  match t with
  | DChar => Some (CV (BNums t [s_cast 1 index])) | DShort => Some (CV (BNums t [s_cast 2 index]))
  | DLong | DInt64 => Some (CV (BNums t [index]))
  | DUChar => Some (CV (BNums t [u_cast 1 index])) | DUShort => Some (CV (BNums t [u_cast 2 index]))
  | DULong => Some (CV (BNums t [u_cast 4 index])) | DUInt64 => Some (CV (BNums t [u_cast 8 index]))
  | DFloat => Some (CV (BNums t [fp32_of_int fp index])) | DDouble => Some (CV (BNums t [fp_of_int fp index]))
  | DString => match choices with
               | None => Some (CFail RNoConvert)
               | Some l => Some (CV (BTexts [match (if 0 <=? index then nth_error l (Z.to_nat index) else None) with
                                             | Some s => fits40 s
                                             | None => print_int (u_cast 4 index)
                                             end]))
               end
  | DEnum | DNoAccess => None
  end.
(** elements of an array, :264-303; the size is at most what was asked for.  castTo<> throws
    for another type if there is memory (ArrayModel). *)
Definition arr_size (a : arr value) : nat := match a with ANull => 0 | APod _ l => length l | AStr l => length l | AVals l => length l end.
Definition read_array (fp : fpu) (t : dbr) (a : arr value) (n : nat) : option (cv buffer) :=
  match t with
  | DString => match a with
               | ANull => Some (CV (BTexts []))
               | AStr l => Some (CV (BTexts (map fits40 (firstn n l))))
               | _ => Some (CFail RError)
               end
  | DEnum | DNoAccess => None
  | _ =>
      match a with
      | ANull => Some (CV (BNums t []))
      | APod c l => Some (cv_map (BNums t) (map_cv (conv_num fp (tc_scalarOf c) (from_dbr t)) (firstn n l)))
      | AStr l => Some (cv_map (BNums t) (map_cv (text_num fp (from_dbr t)) (firstn n l)))
      | AVals l => if Nat.eqb (Nat.min n (length l)) 0 then Some (CV (BNums t [])) else Some (CFail RNoConvert)
      end
  end.
(** the value of pvaGetValue(), :252-366.  [n] is *pnRequest.  The result is what is in the
    buffer and nReq. *)
Definition read_node (fp : fpu) (v0 : option node) (sub : list str -> option node) (t : dbr) (n : option Z) : option (cv (buffer * Z)) :=
  let v := match v0 with
           | Some d => if nd_code d =? tc_Any then sub [bs "->"] else Some d
           | None => None
           end in
  let nreq := match n with Some z => z | None => 1 end in
  match v with
  | None => Some (CV (match n with None => (BZero, 1) | Some z => (BNone, z) end))
  | Some d =>
      if nreq <=? 0 then Some (CV (match n with None => (BZero, 1) | Some z => (BNone, z) end))
      else if tc_isarray (nd_code d) then
        match nd_data d with
        | PArr a => let m := Z.min nreq (Z.of_nat (arr_size a)) in
                    option_map (cv_map (fun b => (b, m))) (read_array fp t a (Z.to_nat m))
        | _ => Some (CFail RNoConvert)
        end
      else if (nd_code d =? tc_Struct) && match v0 with Some d0 => str_eqb (nd_id d0) (bs "enum_t") | None => false end then
        match sub [bs "index"] with
        | None => Some (CFail RNoField)
        | Some ix => match as_z fp (nd_data ix) WInt with
                     | CFail r => Some (CFail r)
                     | CV z => option_map (cv_map (fun b => (b, 1)))
                                 (read_enum fp t (s_cast 4 z)
                                    (match sub [bs "choices"] with
                                     | Some c => match nd_data c with PArr (AStr l) => Some l | PArr ANull => Some [] | _ => None end
                                     | None => None
                                     end))
                     end
        end
      else option_map (cv_map (fun b => (b, 1)))
             (if nd_code d =? tc_Struct then match read_scalar fp t PNull with None => None | Some _ => Some (CFail RNoConvert) end
              else read_scalar fp t (nd_data d))
  end.
Definition read_value (fp : fpu) (k : lchan) (l : link) (t : dbr) (n : option Z) : option (cv (buffer * Z)) :=
  read_node fp (look k (f_value l)) (fun q => match f_value l with Some (g, p) => look k (Some (g, p ++ q)) | None => None end) t n.
(** alarm and time, :371-405, from the fields if there are any *)
Definition snap_of (fp : fpu) (sec nsec sevr msg : option node) : cv ((Z * Z) * Z * str) :=
  let num r n := match r with Some d => cv_map (u_cast n) (as_z fp (nd_data d) WUInt) | None => CV 0 end in
  match (match sec with
         | None => CV (0, 0)
         | Some d => match cv_map (u_cast 4) (as_z fp (nd_data d) WUInt) with
                     | CFail r => CFail r
                     | CV s => cv_map (fun ns => (u_cast 4 (s - 631152000), ns)) (num nsec 4%nat)
                     end
         end) with
  | CFail r => CFail r
  | CV tm => match num sevr 2%nat with
             | CFail r => CFail r
             | CV e => let e := s_cast 2 e in
                       if negb (e =? 0)
                       then match msg with
                            | None => CV (tm, e, [])
                            | Some d => cv_map (fun m => (tm, e, m)) (to_text fp (nd_data d))
                            end
                       else CV (tm, e, [])
             end
  end.
Definition read_snap (fp : fpu) (k : lchan) (l : link) : cv ((Z * Z) * Z * str) :=
  snap_of fp (look k (f_sec l)) (look k (f_nsec l)) (look k (f_sevr l)) (look k (f_msg l)).
Definition raises (m : msev) (e : Z) : bool :=
  match m with MS => negb (e =? 0) | MSI => e =? 3 | NMS => false end.

(** ** The channel *)

Definition alive (k : lchan) : bool := negb (is_nil (k_links k)).
(** the channel of a link: None is a null pointer *)
Definition chan_of (i : nat) (x : ctx) : option (link * nat * lchan) :=
  match x_links x i with
  | Some l => match l_chan l with
              | Some c => match x_chans x c with Some k => Some (l, c, k) | None => None end
              | None => None
              end
  | None => None
  end.
Definition map_links (f : link -> link) (is : list nat) (x : ctx) : ctx :=
  set_links (fun j => if existsb (Nat.eqb j) is then option_map f (x_links x j) else x_links x j) x.
Definition all_links (x : ctx) (is : list nat) : list (nat * link) :=
  flat_map (fun i => match x_links x i with Some l => [(i, l)] | None => [] end) is.

(** pvaLinkChannel::put(), ioc/pvalink_channel.cpp:220-280 *)
Definition put (c : nat) (force : bool) (x : ctx) : ctx :=
  match x_chans x c with
  | None => x
  | Some k =>
      let todo := filter (fun p => match l_scratch (snd p) with Some _ => true | None => false end) (all_links x (k_links k)) in
      let asks (f : proc -> bool) := existsb (fun p => f (cf_proc (l_conf (snd p)))) todo in
      let block := negb (is_nil (k_after k)) in
      let mode := if asks (fun p => match p with PP | CP | CPP => true | _ => false end) || force then MTrue
                  else if asks (fun p => match p with NPP => true | _ => false end) then MFalse else MPassive in
      let x1 := map_links (fun l => match l_scratch l with Some d => l_with_put None (Some d) l | None => l end) (k_links k) x in
      if force || negb (is_nil todo)
      then emit [OStart c mode block] (set_chan c (Some (k_with_put (Some {| po_built := false; po_block := block; po_mode := mode |}) (k_after k) k)) x1)
      else x1
  end.
(** linkBuildPut(), :127-184.  [proto] is the type of the PV, and [bad] tells which
    assignments throw: the PUT ends with an error, and the links behind keep their data. *)
Definition target (proto : img) (l : link) : option (list str * node) :=
  let p := path_of (cf_field (l_conf l)) in
  match proto p with
  | None => None
  | Some n => if nd_code n =? tc_Struct
              then match proto (p ++ [bs "value"]) with Some m => Some (p ++ [bs "value"], m) | None => Some (p, n) end
              else Some (p, n)
  end.
Definition is_empty (d : pdata) : bool := match d with DNums _ l => is_nil l | DTexts l => is_nil l end.
Definition item (proto : img) (l : link) (d : pdata) : option (list str * pitem) :=
  match target proto l with
  | None => None
  | Some (p, n) =>
      if tc_isarray (nd_code n) then Some (p, IArray d)
      else if is_empty d then None
      else Some (if (nd_code n =? tc_Struct) && str_eqb (nd_id n) (bs "enum_t") then p ++ [bs "index"] else p, IFirst d)
  end.
Fixpoint build_items (proto : img) (bad : list str -> bool) (ls : list (nat * link)) : list (list str * pitem) * list nat * bool :=
  match ls with
  | [] => ([], [], true)
  | (i, l) :: r =>
      match l_queue l with
      | None => build_items proto bad r
      | Some d => match item proto l d with
                  | Some (p, it) => if bad p then ([], [i], false)
                                    else let '(a, b, ok) := build_items proto bad r in ((p, it) :: a, i :: b, ok)
                  | None => let '(a, b, ok) := build_items proto bad r in (a, i :: b, ok)
                  end
      end
  end.
(** linkPutDone(), :186-217 *)
Definition put_done (c : nat) (ok : bool) (x : ctx) : ctx :=
  match x_chans x c with
  | None => x
  | Some k =>
      let x1 := set_chan c (Some (k_with_put None (k_after k) k)) x in
      let x2 := if ok then put c false x1 else x1 in
      if is_nil (k_after k) then x2 else set_tasks (x_tasks x2 ++ [TAfter c]) x2
  end.
Definition build (c : nat) (proto : img) (bad : list str -> bool) (x : ctx) : ctx :=
  match x_chans x c with
  | Some k =>
      match k_put k with
      | Some op =>
          if po_built op then x
          else let '(items, done, ok) := build_items proto bad (all_links x (k_links k)) in
               let x1 := map_links (fun l => l_with_put (l_scratch l) None l) done x in
               if ok then emit [OSend c items] (set_chan c (Some (k_with_put (Some {| po_built := true; po_block := po_block op; po_mode := po_mode op |}) (k_after k) k)) x1)
               else put_done c false x1
      | None => x
      end
  | None => x
  end.
(** AfterPut::run(), :282-310 *)
Definition complete (r : nat) (x : ctx) : ctx :=
  if r_pact (x_recs x r)
  then emit [OLock [r]; OComplete r; OUnlock [r]] (set_rec r {| r_pact := false; r_passive := r_passive (x_recs x r) |} x)
  else emit [OLock [r]; ONotActive r; OUnlock [r]] x.
Definition after_put (c : nat) (x : ctx) : ctx :=
  match x_chans x c with
  | Some k => if alive k then fold_left (fun x r => complete r x) (k_after k) (set_chan c (Some (k_with_put (k_put k) [] k)) x) else x
  | None => x
  end.
(** pvaLink::scanOnUpdate(), ioc/pvalink_link.cpp:122-133: whether, and whether only if passive *)
Definition scans (l : link) : option bool :=
  match l_kind l, cf_proc (l_conf l) with
  | KIn, CP => Some false
  | KIn, CPP => Some true
  | _, _ => None
  end.
(** ScanTrack::scan(), ioc/pvalink_channel.cpp:313-325.  What processing changes in other
    records is not seen within one turn. *)
Definition scan (x : ctx) (p : nat * bool) : list out :=
  let '(r, check) := p in
  if check && negb (r_passive (x_recs x r)) then []
  else if r_pact (x_recs x r) then [OReproc r] else [OProc r].
(** pvaLinkChannel::run(), :328-437 *)
Definition take (c : nat) (e : mev) (k : lchan) (x : ctx) : ctx :=
  match e with
  | MUpdate u =>
      if k_conn k
      then set_chan c (Some (k_with_root (match rev (k_roots k) with i :: r => rev r ++ [merge i u] | [] => [] end) true k)) x
      else let k1 := k_with_root (k_roots k ++ [up_img u]) true k in
           map_links (type_change k1) (k_links k) (set_chan c (Some k1) x)
  | MDisconnect s ns =>
      map_links (fun l => l_with_put None None (l_with_snap (s, ns) (s_sevr l) (s_msg l) l)) (k_links k)
        (set_chan c (Some (k_with_put None (k_after k) (k_with_root (k_roots k) false k))) x)
  | MError => set_chan c (Some k) x
  end.
Definition rescan (x : ctx) (k : lchan) : lchan :=
  if k_changed k then
    let ls := all_links x (k_links k) in
    let sel (b : bool) := flat_map (fun p => if Bool.eqb (cf_atomic (l_conf (snd p))) b
                                             then match scans (snd p) with Some ch => [(l_rec (snd p), ch)] | None => [] end
                                             else []) ls in
    k_with_scan (sel true) (sel false) k
  else k.
Definition run_chan (c : nat) (x : ctx) : ctx :=
  match x_chans x c with
  | None => x
  | Some k =>
      if negb (alive k) then x
      else match k_events k with
           | [] => set_chan c (Some (k_with_events [] true k)) x
           | e :: r =>
               let x1 := take c e (k_with_events r (k_notify k) k) (emit [OEvent c e] x) in
               match x_chans x1 c with
               | None => x1
               | Some k1 =>
                   let k2 := rescan x1 k1 in
                   let a := map fst (k_atomic k2) in
                   let x2 := emit ((if is_nil a then [] else [OLock a] ++ flat_map (scan x1) (k_atomic k2) ++ [OUnlock a])
                                   ++ flat_map (fun p => [OLock [fst p]] ++ scan x1 p ++ [OUnlock [fst p]]) (k_other k2))
                                  (set_chan c (Some k2) x1) in
                   set_tasks (x_tasks x2 ++ [TRun c]) x2
               end
           end
  end.

(** ** Events *)

Inductive event :=
| EOpen (i : nat) (cf : conf) (kd : kind) (r : nat) (test : bool)  (* pvaOpenLink(); dbChannelTest() of the name succeeds *)
| ERemove (i : nat)                                                (* pvaRemoveLink() *)
| EFree (c : nat)                                                  (* ~pvaLinkChannel() *)
| EInit                                                            (* linkGlobal_t::init() *)
| ENet (c : nat) (e : mev)                                         (* the subscription queues an event *)
| EWork                                                            (* one turn of the worker *)
| EGet (i : nat) (t : dbr) (n : option Z)                          (* pvaGetValue() *)
| EPut (i : nat) (d : pdata) (wait : bool)                         (* pvaPutValue(), pvaPutValueAsync() *)
| EFwd (i : nat)                                                   (* pvaScanForward() *)
| EBuild (c : nat) (proto : img) (bad : list str -> bool)          (* the server answers INIT of a PUT *)
| EDone (c : nat) (ok : bool)                                      (* result of a PUT *)
| ERec (r : nat) (d : recd).                                       (* a record changes *)

Definition request (cf : conf) : key := (cf_name cf, (cf_pipeline cf, u_cast 4 (cf_queue cf))).
Definition key_eqb (a b : key) : bool := str_eqb (fst a) (fst b) && Bool.eqb (fst (snd a)) (fst (snd b)) && (snd (snd a) =? snd (snd b)).
(** the set of links: by monorder, :82-86 *)
Fixpoint place (x : ctx) (o : Z) (i : nat) (l : list nat) : list nat :=
  match l with
  | [] => [i]
  | j :: r => match x_links x j with
              | Some lj => let oj := cf_order (l_conf lj) in
                           if (oj <? o) || (oj =? o) && Nat.ltb j i then j :: place x o i r else i :: l
              | None => j :: place x o i r
              end
  end.
Definition new_link (cf : conf) (kd : kind) (r : nat) : link :=
  {| l_conf := cf; l_kind := kd; l_rec := r; l_chan := None; l_scratch := None; l_queue := None; f_value := None; f_sec := None;
     f_nsec := None; f_sevr := None; f_msg := None; f_meta := None; s_time := (0, 0); s_sevr := 3; s_msg := [] |}.
Definition new_chan (k : key) : lchan :=
  {| k_key := k; k_open := false; k_events := []; k_notify := true; k_roots := []; k_conn := false; k_links := []; k_changed := false;
     k_atomic := []; k_other := []; k_put := None; k_after := [] |}.
(** open(), :106-124 *)
Definition subscribe (c : nat) (x : ctx) : ctx :=
  match x_chans x c with
  | Some k => emit [OSub c (k_key k)] (set_chan c (Some (k_with_open true k)) x)
  | None => x
  end.
(** pvaOpenLink(), ioc/pvalink_lset.cpp:42-151.  A channel without links is one which is
    being destroyed: its weak reference is dead. *)
Definition find_chan (k : key) (x : ctx) : option nat :=
  match find (fun p => key_eqb k (fst p)) (x_keys x) with
  | Some (_, c) => match x_chans x c with Some ch => if alive ch then Some c else None | None => None end
  | None => None
  end.
Definition open_link (i : nat) (cf : conf) (kd : kind) (r : nat) (test : bool) (x : ctx) : ctx :=
  match x_links x i with
  | Some _ => x
  | None =>
      if cf_local cf && negb test then x (* lset = NULL: no further calls *)
      else if is_nil (cf_name cf) then set_link i (Some (new_link cf kd r)) x
      else
        let k := request cf in
        let '(x1, c) :=
          match find_chan k x with
          | Some c => (x, c)
          | None =>
              let c := x_nc x in
              (* insert() does not replace *)
              let keys := if existsb (fun p => key_eqb k (fst p)) (x_keys x) then x_keys x else x_keys x ++ [(k, c)] in
              let x1 := set_keys keys (S c) (set_chan c (Some (new_chan k)) x) in
              (if x_running x then subscribe c x1 else x1, c)
          end in
        match x_chans x1 c with
        | None => x1
        | Some ch =>
            let l0 := l_with_chan (Some c) (new_link cf kd r) in
            let l := if k_conn ch then type_change ch l0 else l0 in
            let x2 := set_link i (Some l) (set_chan c (Some (k_with_links (place x1 (cf_order cf) i (k_links ch)) true ch)) x1) in
            match (if k_conn ch then scans l else None) with
            | Some check => emit (if negb check || r_passive (x_recs x r) then [OScanOnce r] else []) x2
            | None => x2
            end
        end
  end.
(** ~pvaLink(), ioc/pvalink_link.cpp:27-47 *)
Definition remove_link (i : nat) (x : ctx) : ctx :=
  match x_links x i with
  | None => x
  | Some l =>
      let x1 := set_link i None x in
      match l_chan l with
      | Some c => match x_chans x c with
                  | Some k => set_chan c (Some (k_with_links (filter (fun j => negb (Nat.eqb i j)) (k_links k)) true k)) x1
                  | None => x1
                  end
      | None => x1
      end
  end.
(** ~pvaLinkChannel(), ioc/pvalink_channel.cpp:95-104: erases whatever has its key *)
Definition free_chan (c : nat) (x : ctx) : ctx :=
  match x_chans x c with
  | Some k => if alive k then x
              else set_chan c None (set_keys (filter (fun p => negb (key_eqb (k_key k) (fst p))) (x_keys x)) (x_nc x) x)
  | None => x
  end.
(** linkGlobal_t::init(), ioc/pvalink.cpp:66-79; called once *)
Definition init_links (x : ctx) : ctx :=
  if x_running x then x else
  fold_left (fun x p => match x_chans x (snd p) with Some k => if alive k then subscribe (snd p) x else x | None => x end) (x_keys x) (set_running x).
(** the client queues an event, and calls event() if it has to (src/clientmon.cpp:85-120) *)
Definition net (c : nat) (e : mev) (x : ctx) : ctx :=
  match x_chans x c with
  | Some k =>
      if k_open k then
        let x1 := set_chan c (Some (k_with_events (k_events k ++ [e]) false k)) x in
        if k_notify k && alive k then set_tasks (x_tasks x1 ++ [TRun c]) x1 else x1
      else x
  | None => x
  end.
(** linkGlobal_t::run(), ioc/pvalink_channel.cpp:53-67 *)
Definition work (x : ctx) : ctx :=
  match x_tasks x with
  | [] => x
  | TRun c :: r => run_chan c (set_tasks r x)
  | TAfter c :: r => after_put c (set_tasks r x)
  end.
(** pvaGetValue(), ioc/pvalink_lset.cpp:237-412.  An exception is caught: -1. *)
Definition get_value (fp : fpu) (i : nat) (t : dbr) (n : option Z) (x : ctx) : option ctx :=
  match x_links x i with
  | None => Some x
  | Some _ =>
      match chan_of i x with
      | None => None
      | Some (l, c, k) =>
          let tm (z : Z * Z) := if cf_time (l_conf l) then [OTime (l_rec l) z] else [] in
          let keep := match n with Some z => z | None => 1 end in
          if negb (valid k) then Some (emit ([OSevr (l_rec l) 3] ++ tm (s_time l) ++ [OGet i SFail BNone keep]) x)
          else match read_value fp k l t n with
               | None => Some (emit [OGet i SBadType BNone keep] x)
               | Some (CFail RUB) => None
               | Some (CFail _) => Some (emit [OGet i SFail BNone keep] x)
               | Some (CV (b, m)) =>
                   match read_snap fp k l with
                   | CFail RUB => None
                   | CFail _ => Some (emit [OGet i SFail b m] x)
                   | CV (z, e, s) =>
                       Some (emit ((if raises (cf_sevr (l_conf l)) e then [OSevr (l_rec l) e] else []) ++ tm z ++ [OGet i SOk b m])
                               (set_link i (Some (l_with_snap z e s l)) x))
                   end
               end
      end
  end.
(** pvaPutValueX(), :570-630.  A record which waits is active after success. *)
Definition put_value (i : nat) (d : pdata) (wait : bool) (x : ctx) : option ctx :=
  match x_links x i with
  | None => Some x
  | Some _ =>
      match chan_of i x with
      | None => None
      | Some (l, c, k) =>
          if negb (cf_retry (l_conf l)) && negb (valid k) then Some (emit [OPut i SFail] x)
          else match d with
               | DNums DEnum _ | DNums DNoAccess _ | DNums DString _ => Some (emit [OPut i SBadType] x)
               | _ =>
                   let d := match d with DTexts s => DTexts (map (fun t => firstn 40 (c_str t)) s) | _ => d end in
                   let after := if wait then (if existsb (Nat.eqb (l_rec l)) (k_after k) then k_after k else k_after k ++ [l_rec l]) else k_after k in
                   let x1 := set_link i (Some (l_with_put (Some d) (l_queue l) l)) (set_chan c (Some (k_with_put (k_put k) after k)) x) in
                   let x2 := if wait then set_rec (l_rec l) {| r_pact := true; r_passive := r_passive (x_recs x (l_rec l)) |} x1 else x1 in
                   let x3 := if cf_defer (l_conf l) then x2 else put c false x2 in
                   Some (emit [OPut i SOk] x3)
               end
      end
  end.
(** pvaScanForward(), :642-658 *)
Definition forward (i : nat) (x : ctx) : option ctx :=
  match x_links x i with
  | None => Some x
  | Some _ =>
      match chan_of i x with
      | None => None
      | Some (l, c, k) =>
          if negb (cf_retry (l_conf l)) && negb (valid k) then Some (emit [OSevr (l_rec l) 3] x)
          else Some (put c true x)
      end
  end.
(** a result follows what was sent, or is an error *)
Definition done (c : nat) (ok : bool) (x : ctx) : ctx :=
  match x_chans x c with
  | Some k => match k_put k with
              | Some op => if ok && negb (po_built op) then x else put_done c ok x
              | None => x
              end
  | None => x
  end.

(** None: use of a null pointer, or undefined behaviour of a conversion *)
Definition step (fp : fpu) (x : ctx) (e : event) : option ctx :=
  match e with
  | EOpen i cf kd r t => Some (open_link i cf kd r t x)
  | ERemove i => Some (remove_link i x)
  | EFree c => Some (free_chan c x)
  | EInit => Some (init_links x)
  | ENet c e => Some (net c e x)
  | EWork => Some (work x)
  | EGet i t n => get_value fp i t n x
  | EPut i d w => put_value i d w x
  | EFwd i => forward i x
  | EBuild c p b => Some (build c p b x)
  | EDone c ok => Some (done c ok x)
  | ERec r d => Some (set_rec r d x)
  end.
Fixpoint run (fp : fpu) (x : ctx) (es : list event) : option ctx :=
  match es with
  | [] => Some x
  | e :: r => match step fp x e with Some y => run fp y r | None => None end
  end.
Definition start : ctx :=
  {| x_running := false; x_links := fun _ => None; x_chans := fun _ => None; x_keys := []; x_nc := 0; x_tasks := [];
     x_recs := fun _ => {| r_pact := false; r_passive := true |}; x_out := [] |}.

(** ** Other questions of a record *)

(** pvaGetDBFtype(), :177-218: the type of the field itself, also of an array *)
Definition dbf_type (k : lchan) (l : link) : option dbr :=
  if negb (valid k) then None
  else Some (match look k (f_value l) with
             | None => DLong
             | Some d =>
                 let c := nd_code d in
                 if c =? tc_Int8 then DChar else if c =? tc_Int16 then DShort else if c =? tc_Int32 then DLong
                 else if c =? tc_Int64 then DInt64 else if c =? tc_UInt8 then DUChar else if c =? tc_UInt16 then DUShort
                 else if c =? tc_UInt32 then DULong else if c =? tc_UInt64 then DUInt64 else if c =? tc_Float32 then DFloat
                 else if c =? tc_Float64 then DDouble else if c =? tc_String then DString
                 else if (c =? tc_Struct) && str_eqb (nd_id d) (bs "enum_t") then
                   match f_value l with
                   | Some (g, p) =>
                       match look k (Some (g, p ++ [bs "index"])), look k (Some (g, p ++ [bs "choices"])) with
                       | Some ix, Some ch => if is_int (nd_code ix) && negb (nd_code ix =? tc_Bool) && (nd_code ch =? tc_StringA) then DEnum else DLong
                       | _, _ => DLong
                       end
                   | None => DLong
                   end
                 else DLong
             end).
(** pvaGetElements(), :220-235 *)
Definition elements (k : lchan) (l : link) (n0 : Z) : option Z :=
  if negb (valid k) then None
  else Some (match look k (f_value l) with
             | Some d => if tc_isarray (nd_code d) then match nd_data d with PArr a => Z.of_nat (arr_size a) | _ => n0 end else 1
             | None => 1
             end).
(** a double or string of the metadata by its path, left alone if it is not there:
    pvaGetControlLimits() and others, :414-510 *)
Definition meta_at (k : lchan) (l : link) (q : list str) : option node :=
  match f_meta l with Some (g, p) => look k (Some (g, p ++ q)) | None => None end.
Definition limits (fp : fpu) (k : lchan) (l : link) (a b : list str) (old : Z * Z) : option (Z * Z) :=
  if negb (valid k) then None
  else let get q z := match meta_at k l q with Some d => match to_real fp (nd_data d) with CV x => x | CFail _ => z end | None => z end in
       Some (get a (fst old), get b (snd old)).
Definition units (fp : fpu) (k : lchan) (l : link) (size : nat) : option str :=
  if negb (valid k) then None
  else Some (firstn (pred size) (c_str (match meta_at k l [bs "display"; bs "units"] with
                                       | Some d => match to_text fp (nd_data d) with CV s => s | CFail _ => [] end
                                       | None => []
                                       end))).
(** pvaGetPrecision(), :480-497 *)
Definition precision (fp : fpu) (k : lchan) (l : link) : option Z :=
  if negb (valid k) then None
  else Some (s_cast 2 (match meta_at k l [bs "display"; bs "precision"] with
                       | Some d => match as_z fp (nd_data d) WUInt with CV z => u_cast 2 z | CFail _ => 0 end
                       | None => 0
                       end)).
(** pvaGetAlarmMsg(), :519-547: status and severity; LINK_ALARM is 14 *)
Definition alarm_now (k : lchan) (l : link) : option (Z * Z) :=
  if negb (valid k) then None else Some (if s_sevr l =? 0 then 0 else 14, s_sevr l).
(** pvaGetTimeStampTag(), :555-575 *)
Definition stamp_now (k : lchan) (l : link) : option (Z * Z) :=
  if negb (valid k) then None else Some (s_time l).
