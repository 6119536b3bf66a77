(** The text of a client request, and what it asks for. *)
From Coq Require Import String ZArith List Bool.
From Verif Require Import Base TypeModel TypeSpec ValueModel ReqModel.
Import ListNotations.
Local Open Scope Z_scope.

(** ** From text to tokens *)
(** characters of words: letters, digits, '_' and '.' *)
Definition word_char (c : Z) : Prop := is_letter c \/ is_digit c \/ c = 46.
Definition symbol (t : tok) : option Z :=
  match t with
  | Comma => Some 44 | Lp => Some 40 | Rp => Some 41 | Lb => Some 91 | Rb => Some 93 | Eq => Some 61
  | _ => None
  end.
Inductive word_is : str -> tok -> Prop :=
| word_field : word_is (bs "field") Field
| word_record : word_is (bs "record") Record_
| word_name : forall w, w <> bs "field" -> w <> bs "record" -> word_is w (Name w).
(** each token may have spaces before it, but none may follow the last *)
Inductive lexes : str -> list tok -> Prop :=
| lx_nil : lexes [] []
| lx_space : forall text t toks, lexes text (t :: toks) -> lexes (32 :: text) (t :: toks)
| lx_symbol : forall c t text toks, symbol t = Some c -> lexes text toks -> lexes (c :: text) (t :: toks)
| lx_word : forall w t text toks, w <> [] -> Forall word_char w -> match text with c :: _ => ~ word_char c | [] => True end ->
    word_is w t -> lexes text toks -> lexes (w ++ text) (t :: toks).

(** ** From tokens to requests *)
Inductive item := IField (path : str) | IOption (k v : str).
(** the grammar of the comment in the source, src/clientreq.cpp:95-108 *)
Inductive doc_fields : list tok -> list item -> Prop :=
| df_one : forall n, doc_fields [Name n] [IField n]
| df_more : forall n l i, doc_fields l i -> doc_fields (Name n :: Comma :: l) (IField n :: i).
Inductive doc_options : list tok -> list item -> Prop :=
| do_one : forall k v, doc_options [Name k; Eq; Name v] [IOption k v]
| do_more : forall k v l i, doc_options l i -> doc_options (Name k :: Eq :: Name v :: Comma :: l) (IOption k v :: i).
Inductive documented : list tok -> list item -> Prop :=
| doc_nil : documented [] []
| doc_name : forall n l i, documented l i -> documented (Name n :: l) (IField n :: i)
| doc_field0 : forall l i, documented l i -> documented (Field :: Lp :: Rp :: l) i
| doc_field : forall fs fi l i, doc_fields fs fi -> documented l i -> documented (Field :: Lp :: fs ++ Rp :: l) (fi ++ i)
| doc_record0 : forall l i, documented l i -> documented (Record_ :: Lb :: Rb :: l) i
| doc_record : forall os oi l i, doc_options os oi -> documented l i -> documented (Record_ :: Lb :: os ++ Rb :: l) (oi ++ i).
(** what is accepted: within field(), names and commas in any order; within record[], a comma after the last *)
Inductive any_fields : list tok -> list item -> Prop :=
| af_nil : any_fields [] []
| af_comma : forall l i, any_fields l i -> any_fields (Comma :: l) i
| af_name : forall n l i, any_fields l i -> any_fields (Name n :: l) (IField n :: i).
Inductive any_options : list tok -> list item -> Prop :=
| ao_nil : any_options [] []
| ao_one : forall k v, any_options [Name k; Eq; Name v] [IOption k v]
| ao_more : forall k v l i, any_options l i -> any_options (Name k :: Eq :: Name v :: Comma :: l) (IOption k v :: i).
Inductive accepted : list tok -> list item -> Prop :=
| acc_nil : accepted [] []
| acc_name : forall n l i, accepted l i -> accepted (Name n :: l) (IField n :: i)
| acc_field : forall fs fi l i, any_fields fs fi -> accepted l i -> accepted (Field :: Lp :: fs ++ Rp :: l) (fi ++ i)
| acc_record : forall os oi l i, any_options os oi -> accepted l i -> accepted (Record_ :: Lb :: os ++ Rb :: l) (oi ++ i).

(** The calls of .field() and .record() which a request is short for.  None: one of them throws. *)
Fixpoint calls (l : list item) (r : req) : option req :=
  match l with
  | [] => Some r
  | IField p :: l' => match add_field p r with (r', true) => calls l' r' | (_, false) => None end
  | IOption k v :: l' => calls l' (add_record k (tc_String, SStr v) r)
  end.

(** ** Paths *)
(** the words of a text between dots, of which empty ones do not count *)
Fixpoint split (s : str) : list str :=
  match s with
  | [] => [[]]
  | c :: s' => if c =? 46 then [] :: split s' else match split s' with w :: l => (c :: w) :: l | [] => [[c]] end
  end.
Definition segments (s : str) : list str := filter (fun w => match w with [] => false | _ => true end) (split s).
Definition prefix (a b : list str) : Prop := exists r, b = a ++ r.
(** the request names the field with this path *)
Definition selects (r : req) (q : list str) : Prop :=
  exists i c, field_at (Mem tc_Struct [] [] (r_fields r)) q i c.
(** .. and asks for all of it *)
Definition whole (r : req) (q : list str) : Prop :=
  exists i c, field_at (Mem tc_Struct [] [] (r_fields r)) q i c /\ m_children c = [].
(** what the paths in the calls, in order, are; the last value given for an option *)
Fixpoint paths (l : list item) : list (list str) :=
  match l with
  | [] => []
  | IField p :: l' => segments p :: paths l'
  | IOption _ _ :: l' => paths l'
  end.
Fixpoint last_option (k : str) (l : list item) : option str :=
  match l with
  | [] => None
  | IField _ :: l' => last_option k l'
  | IOption k' v :: l' =>
    match last_option k l' with
    | Some v' => Some v'
    | None => if list_eq_dec Z.eq_dec k' k then Some v else None
    end
  end.

(** ** Writing a request *)
Fixpoint joined (sep : Z) (l : list str) : str :=
  match l with
  | [] => []
  | [x] => x
  | x :: l' => x ++ sep :: joined sep l'
  end.
(** field(a,b.c) *)
Definition field_text (ps : list (list str)) : str := bs "field(" ++ joined 44 (map (joined 46) ps) ++ bs ")".
(** record[k=v,k=v] *)
Definition record_text (os : list (str * str)) : str := bs "record[" ++ joined 44 (map (fun o => fst o ++ 61 :: snd o) os) ++ bs "]".

(** A request made by any calls, some of which may have thrown.  The codes of the values of options
    are those of scalars and arrays. *)
Inductive built : req -> Prop :=
| b_new : built new_req
| b_field : forall s r, built r -> built (fst (add_field s r))
| b_record : forall k code v r, leaf_code code = true -> built r -> built (add_record k (code, v) r)
| b_text : forall text r, built r -> built (fst (parse text r)).
