(** Model of client requests: CommonBase::_field(), _record(), PVRParser, _parse() and _buildReq()
    (src/clientreq.cpp:40-334), behind .field(), .record() and .pvRequest() of the builders of operations.

    Text which is parsed ends at the first NUL.  The values of options are those of scalar fields.
    Simplification: _rawRequest(), which replaces all of this, is left out.

    No proofs in this file. *)
From Coq Require Import String ZArith List Bool.
From Verif Require Import Base WireModel TypeModel TextModel ValueModel.
Import ListNotations.
Local Open Scope Z_scope.

(** struct Req, src/clientreq.cpp:20-30: the members of "field", and the options in order of key *)
Definition optval : Type := Z * sto value.
Record req := Req { r_fields : list member; r_opts : list (str * optval) }.
Definition new_req : req := Req [] [].

(** s.substr(0, sep) and what follows the '.' at sep; None: no '.' *)
Fixpoint cut (s : str) : str * option str :=
  match s with
  | [] => ([], None)
  | c :: s' => if c =? dot then ([], Some s') else let '(a, r) := cut s' in (c :: a, r)
  end.

(** The loop of _field(), src/clientreq.cpp:49-83, with [cs] the children of *cur.  The flag: Member() threw,
    what was added before stays. *)
Fixpoint field_loop (fuel : nat) (s : str) (cs : list member) : list member * bool :=
  match fuel with
  | O => (cs, true)
  | S fuel' =>
    match s with
    | [] => (cs, true)
    | c :: s' =>
      if c =? dot then field_loop fuel' s' cs
      else
        let '(child, r) := cut s in
        let rest := match r with Some x => x | None => [] end in
        (fix go (l : list member) : list member * bool :=
           match l with
           | [] =>
             if name_validate child then
               let '(kids, ok) := field_loop fuel' rest [] in ([Mem tc_Struct child [] kids], ok)
             else ([], false)
           | x :: l' =>
             if str_eqb (m_name x) child then
               let '(kids, ok) := field_loop fuel' rest (m_children x) in
               (Mem (m_code x) (m_name x) (m_id x) kids :: l', ok)
             else let '(l2, ok) := go l' in (x :: l2, ok)
           end) cs
    end
  end.
(** _field(): .field(s) *)
Definition add_field (s : str) (r : req) : req * bool :=
  let '(cs, ok) := field_loop (S (length s)) s (r_fields r) in (Req cs (r_opts r), ok).
(** _record(), src/clientreq.cpp:85-91: .record(k, v) *)
Definition add_record (k : str) (v : optval) (r : req) : req := Req (r_fields r) (map_set k v (r_opts r)).

(** ** PVRParser, src/clientreq.cpp:93-283 *)
Inductive tok := Comma | Lp | Rp | Lb | Rb | Eq | Field | Record_ | Name (s : str) | Eof.
(** [Near]: "invalid character near: ..", [At_]: "Expected .. at ..", with the text shown;
    [BadName]: "invalid field name" *)
Inductive err := Near (s : str) | At_ (s : str) | BadName (s : str).
Inductive lexed := Tok (t : tok) (rest : str) | LexErr (near : str).

Fixpoint skip_spaces (s : str) : str :=
  match s with
  | c :: s' => if c =? 32 then skip_spaces s' else s
  | [] => []
  end.
Definition punct (c : Z) : option tok :=
  if c =? 91 then Some Lb else if c =? 93 then Some Rb else if c =? 40 then Some Lp else if c =? 41 then Some Rp
  else if c =? 44 then Some Comma else if c =? 61 then Some Eq else None.
Definition isname (c : Z) : bool :=
  ((97 <=? c) && (c <=? 122)) || ((65 <=? c) && (c <=? 90)) || ((48 <=? c) && (c <=? 57)) || (c =? 46) || (c =? 95).
Fixpoint span (s : str) : str * str :=
  match s with
  | [] => ([], [])
  | c :: s' => if isname c then let '(a, r) := span s' in (c :: a, r) else ([], s)
  end.
Definition word (w : str) : tok :=
  if str_eqb w (bs "field") then Field else if str_eqb w (bs "record") then Record_ else Name w.
(** lex(), :135-185 *)
Definition lex (input : str) : lexed :=
  match input with
  | [] => Tok Eof []
  | _ =>
    let i := skip_spaces input in
    match i with
    | [] => LexErr []
    | c :: i' =>
      match punct c with
      | Some t => Tok t i'
      | None =>
        let '(w, rest) := span i in
        if is_nil w then LexErr i else Tok (word w) rest
      end
    end
  end.

(** the target, and how a function ended: [Ok x], by an exception, or (never) out of fuel *)
Inductive res (A : Type) := Ok (a : A) | Err (e : err) | Fuel.
Arguments Ok {A} a.
Arguments Err {A} e.
Arguments Fuel {A}.
Definition is_name (t : tok) : bool := match t with Name _ => true | _ => false end.
Definition is_eq (t : tok) : bool := match t with Eq => true | _ => false end.

(** parse_fields(), :229-243.  Returns the last token, and the text after it. *)
Fixpoint parse_fields (fuel : nat) (input : str) (r : req) : req * res (tok * str) :=
  match fuel with
  | O => (r, Fuel)
  | S fuel' =>
    match lex input with
    | LexErr s => (r, Err (Near s))
    | Tok (Name n) rest =>
      let '(r', ok) := add_field n r in
      if ok then parse_fields fuel' rest r' else (r', Err (BadName n))
    | Tok Comma rest => parse_fields fuel' rest r
    | Tok t rest => (r, Ok (t, rest))
    end
  end.

(** the loop of parse_options(), :247-281, with the token read last *)
Fixpoint options_loop (fuel : nat) (t : tok) (input : str) (r : req) : req * res (tok * str) :=
  match fuel with
  | O => (r, Fuel)
  | S fuel' =>
    match t with
    | Name key =>
      match lex input with
      | LexErr s => (r, Err (Near s))
      | Tok t1 rest1 =>
        match lex rest1 with
        | LexErr s => (r, Err (Near s))
        | Tok t2 rest2 =>
          match is_eq t1, t2 with
          | true, Name val =>
            let r1 := add_record key (tc_String, SStr val) r in
            match lex rest2 with
            | LexErr s => (r1, Err (Near s))
            | Tok Comma rest3 =>
              match lex rest3 with
              | LexErr s => (r1, Err (Near s))
              | Tok t4 rest4 => options_loop fuel' t4 rest4 r1
              end
            | Tok t3 rest3 => (r1, Ok (t3, rest3))
            end
          | _, _ => (r, Err (At_ input))
          end
        end
      end
    | t => (r, Ok (t, input))
    end
  end.
Definition parse_options (fuel : nat) (input : str) (r : req) : req * res (tok * str) :=
  match lex input with
  | LexErr s => (r, Err (Near s))
  | Tok t rest => options_loop fuel t rest r
  end.

(** parse(), :187-227 *)
Fixpoint parse_loop (fuel : nat) (input : str) (r : req) : req * res unit :=
  match fuel with
  | O => (r, Fuel)
  | S fuel' =>
    match lex input with
    | LexErr s => (r, Err (Near s))
    | Tok Eof _ => (r, Ok tt)
    | Tok Field rest =>
      match lex rest with
      | LexErr s => (r, Err (Near s))
      | Tok Lp rest1 =>
        match parse_fields fuel' rest1 r with
        | (r', Ok (Rp, rest2)) => parse_loop fuel' rest2 r'
        | (r', Ok _) => (r', Err (At_ input))
        | (r', Err e) => (r', Err e)
        | (r', Fuel) => (r', Fuel)
        end
      | Tok _ _ => (r, Err (At_ input))
      end
    | Tok Record_ rest =>
      match lex rest with
      | LexErr s => (r, Err (Near s))
      | Tok Lb rest1 =>
        match parse_options fuel' rest1 r with
        | (r', Ok (Rb, rest2)) => parse_loop fuel' rest2 r'
        | (r', Ok _) => (r', Err (At_ input))
        | (r', Err e) => (r', Err e)
        | (r', Fuel) => (r', Fuel)
        end
      | Tok _ _ => (r, Err (At_ input))
      end
    | Tok (Name n) rest =>
      let '(r', ok) := add_field n r in
      if ok then parse_loop fuel' rest r' else (r', Err (BadName n))
    | Tok _ _ => (r, Err (At_ input))
    end
  end.
(** _parse(), :285-289: .pvRequest(text) *)
Definition parse (text : str) (r : req) : req * res unit :=
  let s := c_str text in parse_loop (S (length s)) s r.

(** _buildReq(), :291-331: the type of the request, and what is assigned to its fields.  None for a
    builder on which nothing was called. *)
Definition option_member (o : str * optval) : member := Mem (fst (snd o)) (fst o) [] [].
Definition build_req (r : option req) : outcome (member * list (str * sto value)) :=
  match r with
  | None =>
    let top := Mem tc_Struct [] [] [Mem tc_Struct (bs "field") [] []] in
    match typedef_make top with OK _ => OK (top, []) | Throws => Throws | Aborts => Aborts end
  | Some q =>
    let top := Mem tc_Struct [] [] [Mem tc_Struct (bs "field") [] (r_fields q)] in
    match typedef_make top with
    | OK _ =>
      if is_nil (r_opts q) then OK (top, [])
      else
        match typedef_append top [Mem tc_Struct (bs "record") [] [Mem tc_Struct (bs "_options") [] (map option_member (r_opts q))]] with
        | OK m => OK (m, map (fun o => (bs "record._options." ++ fst o, snd (snd o))) (r_opts q))
        | Throws => Throws
        | Aborts => Aborts
        end
    | Throws => Throws
    | Aborts => Aborts
    end
  end.
