(** Specification vocabulary for group definitions. *)
From Coq Require Import String ZArith List Bool Sorting.Permutation Sorting.Sorted.
From Verif Require Import Base WireModel TypeModel TextModel TextSpec ValueModel MarkModel CopyModel NtModel TypeSpec NtSpec GroupModel.
Import ListNotations.
Local Open Scope Z_scope.

(** ** Field names *)

(** [t] is one of the parts of [s] separated by [c]; an empty part counts only before
    a separator. *)
Definition piece (c : Z) (s t : str) : Prop :=
  ~ In c t /\ exists a b, s = a ++ t ++ b /\ (a = [] \/ exists a', a = a' ++ [c]) /\ (b = [] /\ t <> [] \/ exists b', b = c :: b').
(** A text spelling one component: a name, or a name with a decimal subscript which
    fits 32 bits (leading zeros allowed; 2^32-1 is kept for "no subscript"). *)
Inductive spells : str -> comp -> Prop :=
| sp_plain : forall n, n <> [] -> ~ In 46 n -> last n 0 <> 93 ->
    spells n {| p_name := n; p_index := no_index |}
| sp_indexed : forall n d i, ~ In 46 n -> numeral 10 d i -> i < no_index ->
    spells (n ++ 91 :: d ++ [93]) {| p_name := n; p_index := i |}.
(** "a.b.c" *)
Fixpoint dotted (l : list str) : str :=
  match l with
  | [] => []
  | [s] => s
  | s :: l' => s ++ 46 :: dotted l'
  end.
(** A component which can be printed and read back. *)
Definition plain_comp (c : comp) : Prop :=
  ~ In 46 (p_name c) /\
  (p_index c = no_index /\ p_name c <> [] /\ last (p_name c) 0 <> 93 \/ 0 <= p_index c < no_index).

(** ** Group definition documents *)

(** The options of one field; the members of a group; a document. *)
Definition jfield := list (str * option src).
Inductive jmember := JOption (name : str) (v : option src) | JField (name : str) (opts : jfield).
Definition jdoc := list (str * list jmember).
(** What the parser reports while reading a document. *)
Definition opt_events (o : str * option src) : list jevent := [EKey (fst o); EVal (snd o)].
Definition member_events (m : jmember) : list jevent :=
  match m with
  | JOption n v => [EKey n; EVal v]
  | JField n opts => EKey n :: EStart :: flat_map opt_events opts ++ [EEnd]
  end.
Definition doc_events (d : jdoc) : list jevent :=
  EStart :: flat_map (fun g => EKey (fst g) :: EStart :: flat_map member_events (snd g) ++ [EEnd]) d ++ [EEnd].
(** A setting: the channel prefix, the group, the field (None: of the group), the
    option, the value.  The settings made by a document, in order. *)
Record setting := { st_prefix : str; st_group : str; st_field : option str; st_key : str; st_value : option src }.
Definition member_settings (prefix g : str) (m : jmember) : list setting :=
  match m with
  | JOption n v => [{| st_prefix := prefix; st_group := g; st_field := None; st_key := n; st_value := v |}]
  | JField n opts => map (fun o => {| st_prefix := prefix; st_group := g; st_field := Some n; st_key := fst o; st_value := snd o |}) opts
  end.
Definition doc_settings (prefix : str) (d : jdoc) : list setting :=
  flat_map (fun g => flat_map (member_settings prefix (fst g)) (snd g)) d.
(** The value suits the option: it can be converted to what the option holds. *)
Definition suits (fp : fpu) (s : setting) : Prop :=
  let text := exists p t, st_value s = Some p /\ to_text fp p = CV t in
  match st_field s with
  | None =>
      (st_key s = bs "+atomic" -> exists p b, st_value s = Some p /\ out_bool fp p = CV b) /\
      (st_key s = bs "+id" -> text)
  | Some _ =>
      (In (st_key s) [bs "+type"; bs "+channel"; bs "+id"; bs "+trigger"] -> text) /\
      (st_key s = bs "+putorder" -> exists p z, st_value s = Some p /\ to_int fp p = CV z)
  end.
Definition doc_keys_ok (d : jdoc) : Prop :=
  Forall (fun g => fst g <> [] /\ Forall (fun m => match m with
                                                   | JField _ opts => Forall (fun o => fst o <> []) opts
                                                   | _ => True end) (snd g)) d.
(** The last setting of an option among those for which [P] holds. *)
Definition field_is (g f key : str) (s : setting) : bool :=
  str_eqb (st_group s) g && match st_field s with Some f' => str_eqb f' f | None => false end && str_eqb (st_key s) key.
Definition group_is (g key : str) (s : setting) : bool :=
  str_eqb (st_group s) g && match st_field s with Some _ => false | None => true end && str_eqb (st_key s) key.
Definition last_such (P : setting -> bool) (l : list setting) : option setting := find P (rev l).
Definition text_of (fp : fpu) (s : setting) : str :=
  match st_value s with Some p => match to_text fp p with CV t => t | _ => [] end | None => [] end.
Definition bool_of (fp : fpu) (s : setting) : bool :=
  match st_value s with Some p => match out_bool fp p with CV t => t | _ => false end | None => false end.
Definition int_of (fp : fpu) (s : setting) : Z :=
  match st_value s with Some p => match to_int fp p with CV t => t | _ => 0 end | None => 0 end.
(** The mapping types by name. *)
Definition mapping_types : list (str * mtype) :=
  [(bs "scalar", MScalar); (bs "plain", MPlain); (bs "any", MAny); (bs "meta", MMeta); (bs "proc", MProc);
   (bs "structure", MStructure); (bs "const", MConst)].
Definition known_type (fp : fpu) (s : setting) : bool := existsb (fun x => str_eqb (fst x) (text_of fp s)) mapping_types.
(** The field [f] of group [g] as told by all settings: each option as last set,
    its default if never; an unknown +type does not count. *)
Definition told_field (fp : fpu) (l : list setting) (g f : str) (c : fconf) : Prop :=
  let last_of key := last_such (field_is g f key) l in
  fc_channel c = match last_of (bs "+channel") with Some s => st_prefix s ++ text_of fp s | None => [] end /\
  fc_trigger c = match last_of (bs "+trigger") with Some s => text_of fp s | None => [] end /\
  fc_id c = match last_of (bs "+id") with Some s => text_of fp s | None => [] end /\
  fc_const c = match last_of (bs "+const") with Some s => st_value s | None => None end /\
  fc_order c = match last_of (bs "+putorder") with
               | Some s => if int_of fp s =? - 2 ^ 63 then 1 - 2 ^ 63 else int_of fp s
               | None => - 2 ^ 63
               end /\
  match last_such (fun s => field_is g f (bs "+type") s && known_type fp s) l with
  | Some s => In (text_of fp s, fc_type c) mapping_types
  | None => fc_type c = MScalar
  end.
Definition told_group (fp : fpu) (l : list setting) (g : str) (c : gconf) : Prop :=
  gc_id c = match last_such (group_is g (bs "+id")) l with Some s => text_of fp s | None => [] end /\
  match last_such (group_is g (bs "+atomic")) l with
  | Some s => gc_atomic_set c = true /\ gc_atomic c = bool_of fp s
  | None => gc_atomic_set c = false
  end /\
  (forall f, In f (map fst (gc_fields c)) <-> exists s, In s l /\ st_group s = g /\ st_field s = Some f) /\
  (forall f x, In (f, x) (gc_fields c) -> told_field fp l g f x).

(** ** Triggers *)

(** Field [f] of a group with these fields triggers field [h]: [h] has a channel and is
    named by [f], alone or by '*'.  In a group without triggers each field triggers
    itself. *)
Definition triggers (fields : list (str * fconf)) (f h : str * fconf) : Prop :=
  fc_channel (snd h) <> [] /\
  (if existsb (fun x => negb (is_nil (fc_trigger (snd x)))) fields
   then piece 44 (fc_trigger (snd f)) (fst h) \/ piece 44 (fc_trigger (snd f)) (bs "*")
   else h = f).
(** Fields of a configuration which end up in the group. *)
Definition kept (x : str * fconf) : Prop := fst x <> [] \/ fc_type (snd x) = MMeta.
(** Order of the fields of a group: by +putorder, then by name. *)
Definition before (a b : str * fconf) : Prop :=
  fc_order (snd a) < fc_order (snd b) \/ fc_order (snd a) = fc_order (snd b) /\ str_ltb (fst a) (fst b) = true.
(** Mappings which read or write a record. *)
Definition needs_record (t : mtype) : Prop := In t [MScalar; MPlain; MAny; MMeta; MProc].

(** ** The type of a group *)

(** Follow member names in any kind of compound. *)
Fixpoint member_at (cs : list member) (path : list str) : option member :=
  match path with
  | [] => None
  | n :: path' =>
      match find (fun c => str_eqb (m_name c) n) cs with
      | None => None
      | Some c => if is_nil path' then Some c else member_at (m_children c) path'
      end
  end.
Definition names_of (path : list comp) : list str := map p_name path.
Definition starts (p q : list str) : Prop := exists r, q = p ++ r.
(** The members made for field [f] (type, path) are at path [p], above or below it. *)
Definition meets (t : mtype) (path p : list str) : Prop :=
  match t with
  | MProc => False
  | MMeta => starts p (path ++ [bs "alarm"]) \/ starts p (path ++ [bs "timeStamp"]) \/
             starts (path ++ [bs "alarm"]) p \/ starts (path ++ [bs "timeStamp"]) p
  | MStructure => starts p path
  | _ => starts p path \/ starts path p
  end.
(** What a channel is seen as: elements of this type. *)
Inductive shows : chan -> Z -> Prop :=
| sh_text : forall c, ch_type c = DChar -> ch_elems c <> 1 -> ch_text c = true -> ch_link c = false -> shows c tc_String
| sh_one : forall c, ch_elems c = 1 -> ch_link c = false -> shows c (from_dbr (ch_type c))
| sh_many : forall c, ch_elems c <> 1 -> ch_link c = false -> ~ (ch_type c = DChar /\ ch_text c = true) ->
    shows c (tc_arrayOf (from_dbr (ch_type c))).

(** ** Creation *)

(** The name of a field: these components, spelled the usual way; none for the empty
    name. *)
Definition named (name : str) (path : list comp) : Prop :=
  path = [] /\ name = [] \/ path <> [] /\ Forall plain_comp path /\ name = print_name path.
(** Fields which can be made: the name is spelled the usual way, the channel (if one
    is given) exists, and can be read if it is to be shown as "any". *)
Definition makeable (db : str -> option chan) (x : str * fconf) : Prop :=
  (exists path, named (fst x) path) /\
  (fc_channel (snd x) <> [] -> exists c, db (fc_channel (snd x)) = Some c /\ (fc_type (snd x) = MAny -> ch_type c <> DNoAccess)).
(** The name has a word in it where a member is to be made: not just "[3]". *)
Definition worded (x : str * fconf) : Prop :=
  forall path, named (fst x) path -> In (fc_type (snd x)) [MScalar; MPlain; MAny] ->
  match path with [] => False | [c] => p_name c <> [] | _ => True end.
(** The field made from [x], apart from its triggers. *)
Definition made (db : str -> option chan) (x : str * fconf) (f : cfield) : Prop :=
  named (fst x) (cf_path f) /\ cf_conf f = snd x /\
  cf_chan f = (if is_nil (fc_channel (snd x)) then None else db (fc_channel (snd x))).

(** ** Types of fields *)

(** Fields for which the members end up where the name says: structures only at the
    top, and no name which is just a subscript. *)
Definition tidy (x : str * fconf) : Prop :=
  forall path, named (fst x) path ->
  (fc_type (snd x) = MStructure -> length path = 1%nat) /\
  match path with [c] => p_name c <> [] | _ => True end.
(** Nothing of these fields, nor the options member, is at the path. *)
Definition apart (others : list (str * fconf)) (p : list str) : Prop :=
  ~ starts [bs "record"] p /\ p <> [] /\
  Forall (fun x => forall path, named (fst x) path -> ~ meets (fc_type (snd x)) (names_of path) p) others.
(** [m] is a Normative type for this channel. *)
Definition normative (c : chan) (m : member) : Prop :=
  if match ch_type c with DEnum => true | _ => false end then laid_out m "epics:nt/NTEnum:1.0" enum_fields
  else exists code s, shows c code /\ of_primitive code s /\
    laid_out m (if code =? s then "epics:nt/NTScalar:1.0"%string else "epics:nt/NTScalarArray:1.0"%string)
      (scalar_fields code s true true (match ch_type c with DString => false | _ => true end) true).
(** Type of a constant. *)
Inductive const_type : src -> Z -> Prop :=
| ct_bool : forall b, const_type (PBool b) tc_Bool
| ct_int : forall z, const_type (PInt z) tc_Int64
| ct_real : forall x, const_type (PReal x) tc_Float64
| ct_text : forall s, const_type (PStr s) tc_String.
(** The member a field [x] makes at the path. *)
Definition member_of (db : str -> option chan) (x : str * fconf) (m : member) : Prop :=
  match fc_type (snd x) with
  | MScalar => exists c, db (fc_channel (snd x)) = Some c /\ normative c m
  | MPlain => exists c code, db (fc_channel (snd x)) = Some c /\ shows c code /\ m_code m = code /\ m_id m = [] /\ m_children m = []
  | MAny => m_code m = tc_Any /\ m_id m = [] /\ m_children m = []
  | MConst => exists v, fc_const (snd x) = Some v /\ (forall code, const_type v code -> m_code m = code) /\ m_id m = [] /\ m_children m = []
  | _ => True
  end.
(** A mapping without a record has no channel, whatever was told. *)
Definition effective (f : fconf) : fconf :=
  match fc_type f with
  | MStructure | MConst => {| fc_channel := []; fc_trigger := fc_trigger f; fc_id := fc_id f; fc_type := fc_type f; fc_order := fc_order f; fc_const := fc_const f |}
  | _ => f
  end.
(** All settings of an IOC: those of the records, then those of the files. *)
Definition all_settings (records : list (str * jdoc)) (files : list jdoc) : list setting :=
  flat_map (fun x => doc_settings (fst x ++ [46]) (snd x)) records ++ flat_map (doc_settings []) files.
Definition docs_fine (fp : fpu) (records : list (str * jdoc)) (files : list jdoc) : Prop :=
  Forall (fun x => doc_keys_ok (snd x)) records /\ Forall doc_keys_ok files /\ Forall (suits fp) (all_settings records files).
Definition as_texts (records : list (str * jdoc)) : list (str * jtext) := map (fun x => (fst x, (doc_events (snd x), true))) records.
Definition file_texts (l : list jdoc) : list jtext := map (fun d => (doc_events d, true)) l.
(** Group [g] is described, not a record, and has a channel for each field which needs one. *)
Definition usable_group (fp : fpu) (is_record : str -> bool) (l : list setting) (g : str) : Prop :=
  is_record g = false /\ (exists s, In s l /\ st_group s = g) /\
  forall s f c, In s l -> st_group s = g -> st_field s = Some f -> told_field fp l g f c -> needs_record (fc_type c) -> fc_channel c <> [].

(** Of all fields of the group only [x] makes members at [p]. *)
Definition alone (fields : list (str * fconf)) (x : str * fconf) (p : list str) : Prop :=
  ~ starts [bs "record"] p /\ p <> [] /\
  forall y path, In y fields -> y <> x -> kept y -> named (fst y) path -> ~ meets (fc_type (snd y)) (names_of path) p.
(** The group is configured with fields which can all be made. *)
Definition sound_group (db : str -> option chan) (g : gconf) : Prop :=
  StronglySorted (fun a b => str_ltb a b = true) (map fst (gc_fields g)) /\
  forall x, In x (gc_fields g) -> kept x -> makeable db x /\ worded x.
(** [xs] are the fields of the group in order. *)
Definition in_order (g : gconf) (xs : list (str * fconf)) : Prop :=
  (forall x, In x xs <-> In x (gc_fields g) /\ kept x) /\ StronglySorted before xs.
