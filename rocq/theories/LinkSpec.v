(** What users of PVA links rely on: options, reading, processing and writing. *)
From Coq Require Import String ZArith List Bool Arith Sorted.
From Verif Require Import Base WireModel TypeModel TextModel ValueModel CopyModel GroupModel LinkModel.
Import ListNotations.
Local Open Scope Z_scope.

(** ** Options *)

(** the JSON text of a link, without numbers with a fraction and without lists *)
Inductive json := VNull | VBool (b : bool) | VInt (z : Z) | VStr (s : str) | VMap (m : list (str * json)).
(** what the parser of EPICS Base calls for it *)
Fixpoint calls (v : json) : list jcall :=
  match v with
  | VNull => [JNull]
  | VBool b => [JBool b]
  | VInt z => [JInt z]
  | VStr s => [JStr s]
  | VMap m => [JStart] ++ flat_map (fun kv => JKey (fst kv) :: calls (snd kv)) m ++ [JEnd]
  end.
(** the meaning of the last member which has the key and a value with a meaning *)
Definition last_of {A} (key : string) (mean : json -> option A) (dflt : A) (m : list (str * json)) : A :=
  fold_left (fun a kv => if list_eq_dec Z.eq_dec (fst kv) (bs key) then match mean (snd kv) with Some b => b | None => a end else a) m dflt.
Definition a_string (v : json) : option str := match v with VStr s => Some s | _ => None end.
Definition a_bool (v : json) : option bool := match v with VBool b => Some b | _ => None end.
Definition a_proc (v : json) : option proc :=
  match v with
  | VNull => Some PDefault
  | VBool b => Some (if b then PP else NPP)
  | VStr s => if list_eq_dec Z.eq_dec s [] then Some PDefault
              else if list_eq_dec Z.eq_dec s (bs "CP") then Some CP
              else if list_eq_dec Z.eq_dec s (bs "CPP") then Some CPP
              else if list_eq_dec Z.eq_dec s (bs "PP") then Some PP
              else if list_eq_dec Z.eq_dec s (bs "NPP") then Some NPP else None
  | _ => None
  end.
Definition a_sevr (v : json) : option msev :=
  match v with
  | VNull => Some NMS
  | VBool b => Some (if b then MS else NMS)
  | VStr s => if list_eq_dec Z.eq_dec s (bs "NMS") then Some NMS
              else if list_eq_dec Z.eq_dec s (bs "MS") then Some MS
              else if list_eq_dec Z.eq_dec s (bs "MSI") then Some MSI
              else if list_eq_dec Z.eq_dec s (bs "MSS") then Some MS else None
  | _ => None
  end.
Definition a_local (v : json) : option bool := match v with VNull => Some false | VBool b => Some b | _ => None end.
Definition a_queue (v : json) : option Z := match v with VInt z => Some (Z.max 1 z) | _ => None end.
Definition a_order (v : json) : option Z := match v with VInt z => Some (Z.max (-1024) (Z.min z 1024)) | _ => None end.
(** integers of the text which an int can hold, as monorder *)
Definition orders_fit (m : list (str * json)) : Prop :=
  forall z, In (bs "monorder", VInt z) m -> -2147483648 <= z < 2147483648.

(** ** Histories *)

Definition reached (fp : fpu) (h : list event) (x : ctx) : Prop := run fp start h = Some x.
(** link [i] of a record reads and writes through channel [c] *)
Definition attached (x : ctx) (i c : nat) : Prop := exists l, x_links x i = Some l /\ l_chan l = Some c.

(** events of channel [c] which the worker has taken, in order *)
Fixpoint taken (c : nat) (o : list out) : list mev :=
  match o with
  | [] => []
  | OEvent d e :: r => if Nat.eq_dec d c then e :: taken c r else taken c r
  | _ :: r => taken c r
  end.
(** the whole value after these events: each connection starts with a whole value, an update
    has the fields which changed; nothing while not connected *)
Definition see (v : option img) (e : mev) : option img :=
  match e, v with
  | MUpdate u, None => Some (up_img u)
  | MUpdate u, Some i => Some (fun p => match i p, up_marked u p, up_img u p with
                                        | Some n, true, Some m => Some {| nd_code := nd_code n; nd_id := nd_id n; nd_data := nd_data m |}
                                        | n, _, _ => n
                                        end)
  | MDisconnect _ _, _ => None
  | MError, _ => v
  end.
Definition latest (es : list mev) : option img := fold_left see es None.
(** events which the subscription of [c] has queued while there was one *)
Fixpoint queued (fp : fpu) (c : nat) (x : ctx) (h : list event) : list mev :=
  match h with
  | [] => []
  | e :: r =>
      (match e with
       | ENet d ev => if Nat.eq_dec d c then match x_chans x c with Some k => if k_open k then [ev] else [] | None => [] end else []
       | _ => []
       end) ++ match step fp x e with Some y => queued fp c y r | None => [] end
  end.

(** ** Fields of a value which a link uses *)

(** the field of the option "field"; its member "value" if it is a structure *)
Definition field_at (v : img) (cf : conf) : option node := v (path_of (cf_field cf)).
Definition is_struct (n : option node) : bool := match n with Some d => nd_code d =? tc_Struct | None => false end.
Definition part (v : img) (cf : conf) (q : list string) : option node :=
  if is_struct (field_at v cf) then v (path_of (cf_field cf) ++ map bs q) else None.
Definition value_at (v : img) (cf : conf) : option node :=
  if is_struct (field_at v cf) then v (path_of (cf_field cf) ++ [bs "value"]) else field_at v cf.

(** ** Processing *)

(** records which the links [is] want to have processed on each update, in order, with
    whether only if passive *)
Definition wants (x : ctx) (atomic : bool) (i : nat) : option (nat * bool) :=
  match x_links x i with
  | Some l => match l_kind l, cf_proc (l_conf l) with
              | KIn, CP => if Bool.eqb (cf_atomic (l_conf l)) atomic then Some (l_rec l, false) else None
              | KIn, CPP => if Bool.eqb (cf_atomic (l_conf l)) atomic then Some (l_rec l, true) else None
              | _, _ => None
              end
  | None => None
  end.
Fixpoint somes {A B} (f : A -> option B) (l : list A) : list B :=
  match l with [] => [] | a :: r => match f a with Some b => b :: somes f r | None => somes f r end end.
Definition wanted (x : ctx) (atomic : bool) (is : list nat) : list (nat * bool) := somes (wants x atomic) is.
(** what happens to such a record *)
Definition treated (x : ctx) (p : nat * bool) : list out :=
  if snd p && negb (r_passive (x_recs x (fst p))) then []
  else if r_pact (x_recs x (fst p)) then [OReproc (fst p)] else [OProc (fst p)].
(** those with the option atomic while all of them are locked, then the others one by one *)
Definition processing (x : ctx) (is : list nat) : list out :=
  (match wanted x true is with
   | [] => []
   | w => [OLock (map fst w)] ++ concat (map (treated x) w) ++ [OUnlock (map fst w)]
   end) ++ concat (map (fun p => [OLock [fst p]] ++ treated x p ++ [OUnlock [fst p]]) (wanted x false is)).
Definition order_of (x : ctx) (i : nat) : Z := match x_links x i with Some l => cf_order (l_conf l) | None => 0 end.
(** [is] are the links of channel [c] by monorder *)
Definition the_links (x : ctx) (c : nat) (is : list nat) : Prop :=
  NoDup is /\ (forall i, In i is <-> attached x i c) /\ StronglySorted (fun i j => order_of x i <= order_of x j) is.

(** ** Reading *)

(** integer types of records: bytes and whether signed *)
Definition int_dbr (t : dbr) : option (nat * bool) :=
  match t with
  | DChar => Some (1%nat, true) | DShort => Some (2%nat, true) | DLong => Some (4%nat, true) | DInt64 => Some (8%nat, true)
  | DUChar => Some (1%nat, false) | DUShort => Some (2%nat, false) | DULong => Some (4%nat, false) | DUInt64 => Some (8%nat, false)
  | _ => None
  end.
(** the number of that type which is equal modulo 2^(8 bytes) *)
Definition wrapped (t : dbr) (z y : Z) : Prop :=
  match int_dbr t with
  | Some (b, true) => - 2 ^ (8 * Z.of_nat b - 1) <= y < 2 ^ (8 * Z.of_nat b - 1) /\ (2 ^ (8 * Z.of_nat b) | z - y)
  | Some (b, false) => 0 <= y < 2 ^ (8 * Z.of_nat b) /\ (2 ^ (8 * Z.of_nat b) | z - y)
  | None => False
  end.
Definition holds_int (o : option node) (z : Z) : Prop := exists d, o = Some d /\ (nd_data d = PInt z \/ nd_data d = PUInt z).
Definition is_scalar (d : node) : Prop := tc_isarray (nd_code d) = false /\ nd_code d <> tc_Struct /\ nd_code d <> tc_Any.
Definition asks (n : option Z) (m : Z) : Prop := m = match n with Some z => z | None => 1 end /\ 0 < m.
(** a string in a buffer of 40 bytes *)
Definition in_40 (s u : str) : Prop := u = firstn 39 (c_str s).
(** what is given to a record which asks for type [t] and [n] elements: buffer and number *)
Inductive gives (fp : fpu) (w : img) (cf : conf) (t : dbr) (n : option Z) : buffer -> Z -> Prop :=
| g_int d z y m : value_at w cf = Some d -> is_scalar d -> nd_data d = PInt z \/ nd_data d = PUInt z -> asks n m -> wrapped t z y -> gives fp w cf t n (BNums t [y]) 1
| g_int_real d z m : value_at w cf = Some d -> is_scalar d -> nd_data d = PInt z \/ nd_data d = PUInt z -> asks n m -> t = DDouble -> gives fp w cf t n (BNums t [fp_of_int fp z]) 1
| g_real d x m : value_at w cf = Some d -> is_scalar d -> nd_data d = PReal x -> asks n m -> t = DDouble -> gives fp w cf t n (BNums t [x]) 1
| g_real_float d x m : value_at w cf = Some d -> is_scalar d -> nd_data d = PReal x -> asks n m -> t = DFloat -> gives fp w cf t n (BNums t [fp_narrow fp x]) 1
| g_text d s u m : value_at w cf = Some d -> is_scalar d -> nd_data d = PStr s -> asks n m -> t = DString -> in_40 s u -> gives fp w cf t n (BTexts [u]) 1
| g_int_text d z m : value_at w cf = Some d -> is_scalar d -> nd_data d = PInt z \/ nd_data d = PUInt z -> asks n m -> t = DString -> in_40 (print_int z) (print_int z) ->
    gives fp w cf t n (BTexts [print_int z]) 1
| g_numbers d c l ys m k : value_at w cf = Some d -> tc_isarray (nd_code d) = true -> nd_code d <> tc_Any -> nd_data d = PArr (APod c l) -> asks n m ->
    int_dbr t <> None \/ t = DFloat \/ t = DDouble -> k = Z.min m (Z.of_nat (length l)) ->
    Forall2 (fun z y => conv_num fp (tc_scalarOf c) (from_dbr t) z = CV y) (firstn (Z.to_nat k) l) ys -> gives fp w cf t n (BNums t ys) k
| g_texts d l us m k : value_at w cf = Some d -> tc_isarray (nd_code d) = true -> nd_code d <> tc_Any -> nd_data d = PArr (AStr l) -> asks n m -> t = DString ->
    k = Z.min m (Z.of_nat (length l)) -> Forall2 in_40 (firstn (Z.to_nat k) l) us -> gives fp w cf t n (BTexts us) k
| g_enum d z y m : value_at w cf = Some d -> nd_code d = tc_Struct -> nd_id d = bs "enum_t" -> part w cf ["value"%string] = Some d ->
    holds_int (part w cf ["value"; "index"]%string) z -> -2147483648 <= z < 2147483648 -> asks n m -> wrapped t z y -> gives fp w cf t n (BNums t [y]) 1
| g_choice d z l e s u m : value_at w cf = Some d -> nd_code d = tc_Struct -> nd_id d = bs "enum_t" -> part w cf ["value"%string] = Some d ->
    holds_int (part w cf ["value"; "index"]%string) z -> 0 <= z < 2147483648 -> part w cf ["value"; "choices"]%string = Some e -> nd_data e = PArr (AStr l) ->
    nth_error l (Z.to_nat z) = Some s -> asks n m -> t = DString -> in_40 s u -> gives fp w cf t n (BTexts [u]) 1.
(** time of the value for a record (seconds from 1990), and its alarm severity *)
Definition time_is (w : img) (cf : conf) (tm : Z * Z) : Prop :=
  (part w cf ["timeStamp"; "secondsPastEpoch"]%string = None /\ tm = (0, 0)) \/
  (exists s n, holds_int (part w cf ["timeStamp"; "secondsPastEpoch"]%string) s /\
     ((part w cf ["timeStamp"; "nanoseconds"]%string = None /\ n = 0) \/ holds_int (part w cf ["timeStamp"; "nanoseconds"]%string) n) /\
     tm = ((s - 631152000) mod 2 ^ 32, n mod 2 ^ 32)).
Definition severity_is (w : img) (cf : conf) (sev : Z) : Prop :=
  ((part w cf ["alarm"; "severity"]%string = None /\ sev = 0) \/ holds_int (part w cf ["alarm"; "severity"]%string) sev) /\ 0 <= sev <= 3 /\
  (part w cf ["alarm"; "message"]%string = None \/ exists d m, part w cf ["alarm"; "message"]%string = Some d /\ nd_data d = PStr m).
(** the alarm which the record gets *)
Definition alarm_for (m : msev) (r : nat) (sev : Z) : list out :=
  match m with
  | NMS => []
  | MS => if Z.eq_dec sev 0 then [] else [OSevr r sev]
  | MSI => if Z.eq_dec sev 3 then [OSevr r 3] else []
  end.

(** ** Writing *)

(** data of a record as it is kept: strings end at a NUL or after 40 bytes *)
Definition kept (d : pdata) : pdata := match d with DTexts s => DTexts (map (fun t => firstn 40 (c_str t)) s) | _ => d end.
(** types of data which can be written *)
Definition writable (d : pdata) : Prop := match d with DNums t _ => int_dbr t <> None \/ t = DFloat \/ t = DDouble | DTexts _ => True end.
(** link [i] accepts a value now: connected, or it has the option retry *)
Definition accepts (x : ctx) (i c : nat) : Prop :=
  exists l, x_links x i = Some l /\ l_chan l = Some c /\ (cf_retry (l_conf l) = true \/ latest (taken c (x_out x)) <> None).
(** the value [d] of link [i] waits for the server to be ready for a PUT *)
Definition pending (x : ctx) (i c : nat) (d : pdata) : Prop :=
  exists l k op, x_links x i = Some l /\ l_chan l = Some c /\ x_chans x c = Some k /\ l_scratch l = None /\ l_queue l = Some d /\ k_put k = Some op /\ po_built op = false.
(** events which do not end the wait: not the next value of this link, its removal, the answer
    of the server, a failure of the PUT, or a disconnect which the worker takes *)
Definition spares (fp : fpu) (x : ctx) (i c : nat) (e : event) : Prop :=
  match e with
  | EPut j _ _ => j <> i
  | ERemove j => j <> i
  | EBuild d _ _ => d <> c
  | EDone d false => d <> c
  | EWork => forall y s ns r, step fp x EWork = Some y -> x_out y <> x_out x ++ OEvent c (MDisconnect s ns) :: r
  | _ => True
  end.
Fixpoint calm (fp : fpu) (i c : nat) (x : ctx) (h : list event) : Prop :=
  match h with
  | [] => True
  | e :: r => spares fp x i c e /\ match step fp x e with Some y => calm fp i c y r | None => True end
  end.
(** where in a value of type [w] the data of a link goes, and what of it: all elements into an
    array, the first into a scalar, or into the index of an enum_t.  A structure stands for its
    member "value". *)
Definition place_of (w : img) (cf : conf) : list str :=
  if is_struct (field_at w cf) then match w (path_of (cf_field cf) ++ [bs "value"]) with Some _ => path_of (cf_field cf) ++ [bs "value"] | None => path_of (cf_field cf) end
  else path_of (cf_field cf).
Inductive writes (w : img) (cf : conf) (d : pdata) : list (list str * pitem) -> Prop :=
| w_none : field_at w cf = None -> writes w cf d []
| w_array n : w (place_of w cf) = Some n -> tc_isarray (nd_code n) = true -> writes w cf d [(place_of w cf, IArray d)]
| w_empty n : w (place_of w cf) = Some n -> tc_isarray (nd_code n) = false -> d = DTexts [] \/ (exists t, d = DNums t []) -> writes w cf d []
| w_scalar n : w (place_of w cf) = Some n -> tc_isarray (nd_code n) = false -> d <> DTexts [] -> (forall t, d <> DNums t []) ->
    nd_code n <> tc_Struct \/ nd_id n <> bs "enum_t" -> writes w cf d [(place_of w cf, IFirst d)]
| w_enum n : w (place_of w cf) = Some n -> nd_code n = tc_Struct -> nd_id n = bs "enum_t" -> d <> DTexts [] -> (forall t, d <> DNums t []) ->
    writes w cf d [(place_of w cf ++ [bs "index"], IFirst d)].
(** the value which link [i] has for the PUT in progress, and the one which it has for the next *)
Definition queued_put (x : ctx) (i : nat) : option pdata := match x_links x i with Some l => l_queue l | None => None end.
Definition deferred_put (x : ctx) (i : nat) : option pdata := match x_links x i with Some l => l_scratch l | None => None end.
Definition proc_of (x : ctx) (i : nat) : proc := match x_links x i with Some l => cf_proc (l_conf l) | None => PDefault end.
(** parts of a PUT: of each link which has a value, in order *)
Inductive parts (x : ctx) (w : img) : list nat -> list (list str * pitem) -> Prop :=
| p_nil : parts x w [] []
| p_skip i is r : queued_put x i = None -> parts x w is r -> parts x w (i :: is) r
| p_add i is l d a r : x_links x i = Some l -> l_queue l = Some d -> writes w (l_conf l) d a -> parts x w is r -> parts x w (i :: is) (a ++ r).
(** option process of a PUT for these links *)
Definition process_option (ps : list proc) (forced : bool) (m : pmode) : Prop :=
  match m with
  | MTrue => forced = true \/ exists p, In p ps /\ (p = PP \/ p = CP \/ p = CPP)
  | MFalse => forced = false /\ (forall p, In p ps -> p = NPP \/ p = PDefault) /\ In NPP ps
  | MPassive => forced = false /\ forall p, In p ps -> p = PDefault
  end.
(** records which wait for a PUT of channel [c] *)
Definition waiting (x : ctx) (c : nat) : list nat := match x_chans x c with Some k => k_after k | None => [] end.

(** ** Sharing *)

(** histories in which a channel which no link uses any more is destroyed before the next
    link is opened *)
Fixpoint tidy (fp : fpu) (x : ctx) (h : list event) : Prop :=
  match h with
  | [] => True
  | e :: r => (match e with EOpen _ _ _ _ _ => forall c, x_chans x c <> None -> exists i, attached x i c | _ => True end) /\
              match step fp x e with Some y => tidy fp y r | None => True end
  end.
(** channel [c] has a subscription *)
Definition subscribed (x : ctx) (c : nat) : Prop := exists k, x_chans x c = Some k /\ k_open k = true.

(** ** Values which can be read as any type *)

(** no floating point number and no array of numbers *)
Definition whole (p : src) : Prop := match p with PReal _ | PArr (APod _ _) => False | _ => True end.
