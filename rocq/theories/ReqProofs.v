(** Lemmas on client requests. *)
From Coq Require Import String ZArith List Bool Lia ZifyBool ZifyNat.
From Verif Require Import Base BaseProofs WireModel TypeModel TypeSpec TypeProofs TypeNameProofs TextModel ValueModel ReqModel ReqSpec.
Import ListNotations.
Local Open Scope Z_scope.

(** ** Lexing *)
Lemma isname_spec : forall c, isname c = true <-> word_char c.
Proof. intros. unfold isname, word_char, is_letter, is_digit. lia. Qed.
Lemma punct_spec : forall c t, punct c = Some t <-> symbol t = Some c.
Proof.
  intros c t. unfold punct. split.
  - repeat match goal with |- context [?a =? ?b] => destruct (Z.eqb_spec a b); [intros H; injection H as <-; subst; reflexivity|] end. discriminate.
  - destruct t; cbn; intros H; try discriminate; injection H as <-; reflexivity.
Qed.
Lemma symbol_not_name : forall t c, symbol t = Some c -> isname c = false /\ c <> 32.
Proof. intros t c H. destruct t; cbn in H; try discriminate; injection H as <-; split; try reflexivity; discriminate. Qed.
Lemma span_spec : forall s w r, span s = (w, r) -> s = w ++ r /\ Forall word_char w /\ match r with c :: _ => ~ word_char c | [] => True end.
Proof.
  induction s as [|c s IH]; intros w r E; cbn [span] in E; [inversion E; subst; auto|]. destruct (isname c) eqn:N.
  - destruct (span s) as [a r'] eqn:SP. inversion E. subst. destruct (IH a r eq_refl) as (-> & F & M). split; [reflexivity|]. split; [constructor; [apply isname_spec; auto|auto]|auto].
  - inversion E. subst. split; [reflexivity|]. split; [constructor|]. rewrite <- isname_spec. congruence.
Qed.
Lemma span_app : forall w r, Forall word_char w -> match r with c :: _ => ~ word_char c | [] => True end -> span (w ++ r) = (w, r).
Proof.
  induction w as [|c w IH]; intros r F M; cbn [app].
  - destruct r as [|c r]; [reflexivity|]. cbn [span]. destruct (isname c) eqn:N; auto. apply isname_spec in N. contradiction.
  - inversion F. subst. cbn [span]. rewrite (proj2 (isname_spec c)) by auto. rewrite IH by auto. reflexivity.
Qed.
Lemma word_spec : forall w t, word w = t <-> word_is w t.
Proof.
  intros w t. unfold word. split.
  - intros <-. destruct (str_eqb w (bs "field")) eqn:E1; [apply str_eqb_eq in E1; subst; constructor|]. destruct (str_eqb w (bs "record")) eqn:E2; [apply str_eqb_eq in E2; subst; constructor|].
    apply str_eqb_neq in E1, E2. constructor; auto.
  - intros H. inversion H; subst; try reflexivity. apply str_eqb_neq in H0, H1. rewrite H0, H1. reflexivity.
Qed.
Lemma word_not : forall w, word w <> Eof /\ symbol (word w) = None.
Proof. intros. unfold word. destruct (str_eqb _ _); [split; [discriminate|reflexivity]|]. destruct (str_eqb _ _); split; try discriminate; reflexivity. Qed.

(** one token from the front *)
Inductive tok1 : str -> tok -> str -> Prop :=
| t1_space : forall text t rest, tok1 text t rest -> tok1 (32 :: text) t rest
| t1_symbol : forall c t text, symbol t = Some c -> tok1 (c :: text) t text
| t1_word : forall w t text, w <> [] -> Forall word_char w -> match text with c :: _ => ~ word_char c | [] => True end -> word_is w t -> tok1 (w ++ text) t text.
Lemma tok1_nil : forall t rest, ~ tok1 [] t rest.
Proof. intros t rest H. remember [] as s. destruct H; try discriminate. destruct w; [contradiction|discriminate]. Qed.
Lemma lexes_cons : forall text t toks, lexes text (t :: toks) <-> exists rest, tok1 text t rest /\ lexes rest toks.
Proof.
  intros text t toks. split.
  - intros H. remember (t :: toks) as l. revert t toks Heql. induction H; intros t0 toks0 E; inversion E; subst.
    + destruct (IHlexes _ _ eq_refl) as (rest & T & L). exists rest. split; [constructor; auto|auto].
    + exists text. split; [constructor; auto|auto].
    + exists text. split; [constructor; auto|auto].
  - intros (rest & T & L). induction T; [constructor; auto|constructor; auto|econstructor; eauto].
Qed.
Lemma lexes_nil : forall text, lexes text [] -> text = [].
Proof. intros text H. inversion H; subst; auto. Qed.
Lemma lex_cons : forall c s, lex (c :: s) = if c =? 32 then (match s with [] => LexErr [] | _ => lex s end)
  else match punct c with Some t => Tok t s | None => let '(w, rest) := span (c :: s) in if is_nil w then LexErr (c :: s) else Tok (word w) rest end.
Proof.
  intros c s. unfold lex at 1. cbn [skip_spaces]. destruct (c =? 32); [|reflexivity]. destruct s; reflexivity.
Qed.
Lemma word_char_32 : ~ word_char 32.
Proof. unfold word_char, is_letter, is_digit. lia. Qed.
Lemma word_char_punct : forall c, word_char c -> punct c = None.
Proof. intros c H. destruct (punct c) eqn:E; auto. apply punct_spec in E. apply symbol_not_name in E. destruct E as [E _]. apply isname_spec in H. congruence. Qed.
Lemma lex_tok : forall s t rest, s <> [] -> (lex s = Tok t rest <-> tok1 s t rest).
Proof.
  intros s t rest NE. split.
  - induction s as [|c s IH]; [contradiction|]. rewrite lex_cons. destruct (Z.eqb_spec c 32) as [->|N].
    + destruct s as [|c' s']; [discriminate|]. intros E. constructor. apply IH; [discriminate|exact E].
    + destruct (punct c) as [t'|] eqn:P.
      * intros E. inversion E. subst. constructor. apply punct_spec. exact P.
      * destruct (span (c :: s)) as [w r] eqn:SP. destruct (span_spec _ _ _ SP) as (E1 & F & M). destruct w as [|c' w]; cbn [is_nil]; [discriminate|]. intros E. inversion E. subst r. rewrite E1. constructor; auto; [discriminate|]. apply word_spec. congruence.
  - intros H. clear NE. induction H.
    + rewrite lex_cons. change (32 =? 32) with true. destruct text; [apply tok1_nil in H; contradiction|exact IHtok1].
    + rewrite lex_cons. destruct (symbol_not_name _ _ H) as [_ N]. destruct (Z.eqb_spec c 32); [contradiction|]. rewrite (proj2 (punct_spec c t) H). reflexivity.
    + destruct w as [|c w]; [contradiction|]. cbn [app]. rewrite lex_cons. inversion H0; subst. destruct (Z.eqb_spec c 32) as [->|N]; [apply word_char_32 in H5; contradiction|].
      rewrite (word_char_punct c H5). change (c :: w ++ text) with ((c :: w) ++ text). rewrite span_app by auto. cbn [is_nil]. f_equal. apply word_spec. auto.
Qed.
Lemma tok1_eof : forall s rest, ~ tok1 s Eof rest.
Proof. intros s rest H. remember Eof as t. induction H; auto; subst; [discriminate|]. inversion H2. Qed.
Lemma tok1_shorter : forall s t rest, tok1 s t rest -> exists pre, s = pre ++ rest /\ pre <> [].
Proof.
  intros s t rest H. induction H.
  - destruct IHtok1 as (pre & -> & _). exists (32 :: pre). split; [reflexivity|discriminate].
  - exists [c]. split; [reflexivity|discriminate].
  - exists w. auto.
Qed.
Lemma lex_err : forall s near, lex s = LexErr near -> exists pre, s = pre ++ near.
Proof.
  induction s as [|c s IH]; intros near E; [discriminate|]. rewrite lex_cons in E. destruct (Z.eqb_spec c 32) as [->|N].
  - destruct s as [|c' s']; [inversion E; exists [32]; reflexivity|]. destruct (IH _ E) as (pre & ->). exists (32 :: pre). reflexivity.
  - destruct (punct c); [discriminate|]. destruct (span (c :: s)) as [w r]. destruct (is_nil w); inversion E. exists []. reflexivity.
Qed.

(** ** Trees of fields *)
(** what the loop of _field() does to the children, [F] being what is done to those of [child] *)
Fixpoint upd (child : str) (F : list member -> list member * bool) (cs : list member) : list member * bool :=
  match cs with
  | [] => if name_validate child then let '(kids, ok) := F [] in ([Mem tc_Struct child [] kids], ok) else ([], false)
  | x :: l' =>
    if str_eqb (m_name x) child then let '(kids, ok) := F (m_children x) in (Mem (m_code x) (m_name x) (m_id x) kids :: l', ok)
    else let '(l2, ok) := upd child F l' in (x :: l2, ok)
  end.
Fixpoint add_segs (p : list str) (cs : list member) : list member * bool :=
  match p with
  | [] => (cs, true)
  | x :: p' => upd x (add_segs p') cs
  end.
Lemma upd_ext : forall child F G cs, (forall l, F l = G l) -> upd child F cs = upd child G cs.
Proof. intros child F G cs E. induction cs as [|x l IH]; cbn [upd]; rewrite ?E; auto. rewrite IH. reflexivity. Qed.
Lemma cut_split : forall s a r, cut s = (a, r) -> split s = a :: match r with Some x => split x | None => [] end.
Proof.
  induction s as [|c s IH]; intros a r E; cbn [cut split] in *; [inversion E; auto|]. unfold dot in E. destruct (c =? 46); [inversion E; auto|].
  destruct (cut s) as [a' r'] eqn:C. inversion E. subst. rewrite (IH _ _ eq_refl). reflexivity.
Qed.
Lemma cut_len : forall s a r, cut s = (a, Some r) -> (length r < length s)%nat.
Proof.
  induction s as [|c s IH]; intros a r E; cbn [cut length] in *; [discriminate|]. destruct (c =? dot); [inversion E; subst; lia|].
  destruct (cut s) as [a' r'] eqn:C. inversion E. subst. specialize (IH _ _ eq_refl). lia.
Qed.
Lemma cut_first : forall c s a r, cut (c :: s) = (a, r) -> c <> dot -> exists a', a = c :: a'.
Proof. intros c s a r E N. cbn [cut] in E. destruct (Z.eqb_spec c dot); [contradiction|]. destruct (cut s). inversion E. eauto. Qed.
Lemma segments_nil : segments [] = [].
Proof. reflexivity. Qed.
Lemma field_loop_segs : forall f s cs, (length s < f)%nat -> field_loop f s cs = add_segs (segments s) cs.
Proof.
  induction f as [|f IH]; intros s cs L; [lia|]. destruct s as [|c s]; [reflexivity|]. cbn [field_loop]. destruct (Z.eqb_spec c dot) as [->|N].
  - cbn [length] in L. rewrite IH by lia. reflexivity.
  - destruct (cut (c :: s)) as [child r] eqn:C. assert (SG : segments (c :: s) = child :: segments (match r with Some x => x | None => [] end)).
    { unfold segments. rewrite (cut_split _ _ _ C). destruct (cut_first _ _ _ _ C N) as (a' & ->). cbn [filter]. destruct r; reflexivity. }
    rewrite SG. cbn [add_segs]. transitivity (upd child (field_loop f (match r with Some x => x | None => [] end)) cs).
    + clear. induction cs as [|x l IH]; cbn [upd]; [reflexivity|]. rewrite <- IH. reflexivity.
    + apply upd_ext. intros l. apply IH. destruct r as [x|]; [apply cut_len in C; cbn [length] in *; lia|cbn [length] in *; lia].
Qed.
Lemma add_field_segs : forall s r, add_field s r = let '(cs, ok) := add_segs (segments s) (r_fields r) in (Req cs (r_opts r), ok).
Proof. intros. unfold add_field. rewrite field_loop_segs by lia. reflexivity. Qed.

Fixpoint lookup (x : str) (cs : list member) : option member :=
  match cs with
  | [] => None
  | c :: l => if str_eqb (m_name c) x then Some c else lookup x l
  end.
(** the members of the node with a path *)
Fixpoint kids (q : list str) (cs : list member) : option (list member) :=
  match q with
  | [] => Some cs
  | x :: q' => match lookup x cs with Some c => kids q' (m_children c) | None => None end
  end.
Definition members_of (x : str) (cs : list member) : list member := match lookup x cs with Some c => m_children c | None => [] end.
Lemma upd_lookup : forall child F cs cs', upd child F cs = (cs', true) -> forall y,
  option_map m_children (lookup y cs') = if str_eqb child y then Some (fst (F (members_of child cs))) else option_map m_children (lookup y cs).
Proof.
  intros child F cs. induction cs as [|x l IH]; intros cs' E y; cbn [upd] in E.
  - destruct (name_validate child); [|discriminate]. unfold members_of. cbn [lookup]. destruct (F []) as [k ok]. inversion E. subst. cbn [lookup m_name]. destruct (str_eqb child y); reflexivity.
  - unfold members_of. cbn [lookup]. destruct (str_eqb (m_name x) child) eqn:N.
    + apply str_eqb_eq in N. destruct (F (m_children x)) as [k ok]. inversion E. subst. cbn [lookup m_name m_children fst]. destruct (str_eqb (m_name x) y); reflexivity.
    + destruct (upd child F l) as [l2 ok2] eqn:U. inversion E. subst. cbn [lookup]. specialize (IH l2 eq_refl y). destruct (str_eqb (m_name x) y) eqn:NY.
      * apply str_eqb_eq in NY. subst y. rewrite str_eqb_neq in N. replace (str_eqb child (m_name x)) with false; auto. symmetry. apply str_eqb_neq. congruence.
      * exact IH.
Qed.
Lemma upd_ok : forall child F cs, snd (upd child F cs) = true <-> (lookup child cs <> None \/ name_validate child = true) /\ snd (F (members_of child cs)) = true.
Proof.
  intros child F cs. induction cs as [|x l IH]; cbn [upd].
  - unfold members_of. cbn [lookup]. destruct (name_validate child); [destruct (F []); cbn [snd]; intuition|cbn [snd]; intuition].
  - unfold members_of. cbn [lookup]. destruct (str_eqb (m_name x) child) eqn:N.
    + destruct (F (m_children x)) as [k ok]. cbn [snd]. split; [intros ->; split; auto; left; discriminate|tauto].
    + destruct (upd child F l) as [l2 ok]. exact IH.
Qed.
Lemma kids_cons : forall x q cs, kids (x :: q) cs = match option_map m_children (lookup x cs) with Some k => kids q k | None => None end.
Proof. intros. cbn [kids]. destruct (lookup x cs); reflexivity. Qed.
Lemma prefix_nil : forall q, prefix q [] <-> q = [].
Proof. intros q. split; [intros (r & E); symmetry in E; apply app_eq_nil in E; tauto|intros ->; exists []; reflexivity]. Qed.
Lemma prefix_cons : forall x q y p, prefix (x :: q) (y :: p) <-> x = y /\ prefix q p.
Proof. intros. split; [intros (r & E); inversion E; split; auto; exists r; auto|intros [-> (r & ->)]; exists r; reflexivity]. Qed.
(** adding a path makes its prefixes exist, and nothing else *)
Lemma add_present : forall p cs cs', add_segs p cs = (cs', true) -> forall q, kids q cs' <> None <-> kids q cs <> None \/ prefix q p.
Proof.
  induction p as [|x p IH]; intros cs cs' E q; cbn [add_segs] in E.
  - inversion E. subst. rewrite prefix_nil. split; [tauto|]. intros [H|H]; [exact H|subst q; discriminate].
  - destruct q as [|y q]; [split; [left; discriminate|discriminate]|]. pose proof (upd_lookup _ _ _ _ E y) as UL. pose proof (proj1 (upd_ok x (add_segs p) cs)) as OK. rewrite E in OK. destruct (OK eq_refl) as [_ OK']. clear OK.
    rewrite !kids_cons, UL, prefix_cons. destruct (str_eqb x y) eqn:XY.
    + apply str_eqb_eq in XY. subst y. destruct (add_segs p (members_of x cs)) as [k ok] eqn:A. cbn [fst snd] in *. subst ok. rewrite (IH _ _ A). unfold members_of. destruct (lookup x cs); cbn [option_map]; [tauto|].
      destruct q; cbn [kids lookup]; intuition try discriminate; try congruence. right. split; auto. exists p. reflexivity.
    + apply str_eqb_neq in XY. intuition congruence.
Qed.
(** a node has no members exactly when no longer path exists *)
Lemma kids_app : forall q q' cs, kids (q ++ q') cs = match kids q cs with Some k => kids q' k | None => None end.
Proof. induction q as [|x q IH]; intros; cbn [app kids]; auto. destruct (lookup x cs); auto. Qed.
Lemma kids_empty : forall q cs, kids q cs = Some [] <-> kids q cs <> None /\ forall x, kids (q ++ [x]) cs = None.
Proof.
  intros q cs. split.
  - intros E. rewrite E. split; [discriminate|]. intros x. rewrite kids_app, E. reflexivity.
  - intros [P N]. destruct (kids q cs) as [[|c k]|] eqn:E; [reflexivity| |contradiction]. specialize (N (m_name c)). rewrite kids_app, E in N. cbn [kids lookup] in N. rewrite str_eqb_refl in N. discriminate.
Qed.

(** *** Well formed trees *)
Fixpoint tree1 (m : member) : Prop :=
  match m with
  | Mem code name id cs => code = tc_Struct /\ id = [] /\ (identifier (c_str name) /\ no_dot name) /\ NoDup (map m_name cs) /\ fold_right (fun c Q => tree1 c /\ Q) True cs
  end.
Definition tree (cs : list member) : Prop := NoDup (map m_name cs) /\ Forall tree1 cs.
Lemma tree1_eq : forall m, tree1 m <-> m_code m = tc_Struct /\ m_id m = [] /\ (identifier (c_str (m_name m)) /\ no_dot (m_name m)) /\ tree (m_children m).
Proof.
  intros [code name id cs]. cbn [tree1 m_code m_id m_name m_children]. unfold tree. split; intros (A & B & C & D & E); do 4 (split; auto).
  - induction cs as [|c cs IH]; constructor; [apply E|]. inversion D. subst. apply IH; [auto|apply E].
  - clear D. induction E; cbn [fold_right]; auto.
Qed.
Lemma lookup_in : forall x cs c, lookup x cs = Some c -> In c cs /\ m_name c = x.
Proof.
  induction cs as [|a l IH]; intros c E; cbn [lookup] in E; [discriminate|]. destruct (str_eqb (m_name a) x) eqn:N; [inversion E; subst; apply str_eqb_eq in N; split; [left|]; auto|]. destruct (IH c E). split; [right|]; auto.
Qed.
Lemma lookup_none : forall x cs, lookup x cs = None <-> ~ In x (map m_name cs).
Proof.
  induction cs as [|a l IH]; cbn [lookup map In]; [intuition|]. destruct (str_eqb (m_name a) x) eqn:N; [apply str_eqb_eq in N; split; [discriminate|tauto]|]. apply str_eqb_neq in N. rewrite IH. intuition.
Qed.
Lemma upd_names : forall child F cs, map m_name (fst (upd child F cs)) = if lookup child cs then map m_name cs else if name_validate child then map m_name cs ++ [child] else map m_name cs.
Proof.
  intros child F cs. induction cs as [|x l IH]; cbn [upd lookup].
  - destruct (name_validate child); [destruct (F [])|]; reflexivity.
  - destruct (str_eqb (m_name x) child) eqn:N.
    + destruct (F (m_children x)). reflexivity.
    + destruct (upd child F l) as [l2 ok]. cbn [fst map] in *. rewrite IH. destruct (lookup child l); [reflexivity|]. destruct (name_validate child); reflexivity.
Qed.
Lemma nodup_snoc : forall (A : Type) (l : list A) x, NoDup l -> ~ In x l -> NoDup (l ++ [x]).
Proof. intros A l x ND NI. rewrite <- (rev_involutive (l ++ [x])). apply NoDup_rev. rewrite rev_app_distr. cbn [rev app]. constructor; [rewrite <- in_rev; auto|apply NoDup_rev; auto]. Qed.
Lemma upd_tree : forall child F cs, no_dot child -> tree cs -> (forall k, tree k -> tree (fst (F k))) -> tree (fst (upd child F cs)).
Proof.
  intros child F cs DOT [ND FA] H. split.
  - rewrite upd_names. destruct (lookup child cs) eqn:L; auto. destruct (name_validate child); auto. apply nodup_snoc; auto. apply lookup_none. exact L.
  - clear ND. induction cs as [|x l IH]; cbn [upd].
    + destruct (name_validate child) eqn:V; [|constructor]. specialize (H [] (conj (NoDup_nil _) (Forall_nil _))). destruct (F []) as [k ok]. cbn [fst] in *. constructor; [|constructor]. apply tree1_eq. cbn [m_code m_id m_name m_children]. do 2 (split; auto). split; auto. split; auto. apply name_validate_identifier. exact V.
    + inversion FA; subst. destruct (str_eqb (m_name x) child).
      * apply tree1_eq in H2. destruct H2 as (A & B & C & D). specialize (H _ D). destruct (F (m_children x)) as [k ok]. cbn [fst] in *. constructor; auto. apply tree1_eq. cbn [m_code m_id m_name m_children]. auto.
      * destruct (upd child F l) as [l2 ok]. cbn [fst] in *. constructor; auto.
Qed.
Lemma add_tree : forall p cs, Forall no_dot p -> tree cs -> tree (fst (add_segs p cs)).
Proof. induction p as [|x p IH]; intros cs D T; cbn [add_segs]; auto. inversion D. subst. apply upd_tree; auto. Qed.
Lemma split_nodot : forall s, Forall no_dot (split s).
Proof.
  induction s as [|c s IH]; cbn [split]; [constructor; [intros []|constructor]|]. destruct (Z.eqb_spec c 46) as [->|N]; [constructor; [intros []|exact IH]|].
  destruct (split s) as [|w l]; [constructor; [intros [H|[]]; unfold dot in H; congruence|constructor]|]. inversion IH. subst. constructor; auto. intros [H|H]; [unfold dot in H; congruence|contradiction].
Qed.
Lemma segments_nodot : forall s, Forall no_dot (segments s).
Proof. intros. unfold segments. rewrite Forall_forall. intros x I. apply filter_In in I. destruct I as [I _]. revert x I. rewrite <- Forall_forall. apply split_nodot. Qed.
Lemma tree_members : forall x cs, tree cs -> tree (members_of x cs).
Proof.
  intros x cs [_ FA]. unfold members_of. destruct (lookup x cs) as [c|] eqn:L; [|split; constructor]. apply lookup_in in L. destruct L as [L _]. rewrite Forall_forall in FA. apply FA in L. apply tree1_eq in L. tauto.
Qed.
(** it throws exactly for a bad name *)
Lemma add_ok : forall p cs, tree cs -> (snd (add_segs p cs) = true <-> Forall (fun x => identifier (c_str x)) p).
Proof.
  induction p as [|x p IH]; intros cs T; cbn [add_segs]; [split; auto; constructor|]. rewrite upd_ok, IH by (apply tree_members; auto). rewrite name_validate_identifier.
  split; [|intros F; inversion F; tauto]. intros [[L|I] F]; constructor; auto. destruct (lookup x cs) as [c|] eqn:LK; [|contradiction]. apply lookup_in in LK. destruct LK as [IN <-]. destruct T as [_ T]. rewrite Forall_forall in T. apply T in IN. apply tree1_eq in IN. tauto.
Qed.

(** *** Paths in the sense of types *)
Lemma lookup_split : forall cs c, NoDup (map m_name cs) -> In c cs -> lookup (m_name c) cs = Some c.
Proof.
  induction cs as [|a l IH]; intros c ND IN; [destruct IN|]. cbn [lookup]. cbn [map] in ND. inversion ND. subst. destruct IN as [->|IN]; [rewrite str_eqb_refl; reflexivity|].
  destruct (str_eqb (m_name a) (m_name c)) eqn:N; [|auto]. apply str_eqb_eq in N. exfalso. apply H1. rewrite N. apply in_map. exact IN.
Qed.
Lemma field_kids : forall q n id cs i c, field_at (Mem tc_Struct n id cs) q i c -> tree cs -> q <> [] /\ kids q cs = Some (m_children c) /\ m_code c = tc_Struct.
Proof.
  intros q n id cs i c H. remember (Mem tc_Struct n id cs) as m. revert n id cs Heqm. induction H; intros n id cs E T; subst m; cbn [m_code m_children] in *.
  - split; [discriminate|]. assert (IN : In c cs) by (rewrite H0; apply in_app_iff; right; left; auto). destruct T as [ND FA]. cbn [kids]. rewrite (lookup_split cs c ND IN). split; auto. rewrite Forall_forall in FA. apply FA in IN. apply tree1_eq in IN. tauto.
  - split; [discriminate|]. assert (IN : In c cs) by (rewrite H0; apply in_app_iff; right; left; auto). destruct T as [ND FA]. cbn [kids]. rewrite (lookup_split cs c ND IN). destruct c as [code name id0 cs0]. cbn [m_code m_children] in *. subst code.
    rewrite Forall_forall in FA. apply FA in IN. apply tree1_eq in IN. cbn [m_children] in IN. destruct (IHfield_at _ _ _ eq_refl ltac:(tauto)) as (_ & K & CC). auto.
Qed.
Lemma kids_field : forall q n id cs k, q <> [] -> kids q cs = Some k -> tree cs -> exists i c, field_at (Mem tc_Struct n id cs) q i c /\ m_children c = k /\ m_code c = tc_Struct.
Proof.
  induction q as [|x q IH]; intros n id cs k NE K T; [contradiction|]. cbn [kids] in K. destruct (lookup x cs) as [c|] eqn:L; [|discriminate]. apply lookup_in in L. destruct L as [IN <-]. destruct (in_split _ _ IN) as (b & a & E).
  destruct T as [_ FA]. rewrite Forall_forall in FA. pose proof (FA _ IN) as T1. apply tree1_eq in T1. destruct T1 as (A & B & C & D). destruct q as [|y q].
  - cbn [kids] in K. inversion K. subst. exists (1 + total_fields b)%nat, c. split; auto. eapply fa_child; [reflexivity|reflexivity].
  - destruct c as [code name id0 cs0]. cbn [m_code m_id m_name m_children] in *. subst code. destruct (IH name id0 cs0 k ltac:(discriminate) K D) as (i & c' & F & E1 & E2).
    exists (1 + total_fields b + i)%nat, c'. split; auto. change name with (m_name (Mem tc_Struct name id0 cs0)) at 1. eapply fa_deeper; [reflexivity|exact E|reflexivity|exact F].
Qed.
Lemma selects_kids : forall r q, tree (r_fields r) -> q <> [] -> (selects r q <-> kids q (r_fields r) <> None).
Proof.
  intros r q T NE. split.
  - intros (i & c & F). apply field_kids in F; auto. destruct F as (_ & -> & _). discriminate.
  - destruct (kids q (r_fields r)) as [k|] eqn:K; [|contradiction]. intros _. destruct (kids_field q [] [] _ k NE K T) as (i & c & F & _). exists i, c. exact F.
Qed.
Lemma whole_kids : forall r q, tree (r_fields r) -> q <> [] -> (whole r q <-> kids q (r_fields r) = Some []).
Proof.
  intros r q T NE. split.
  - intros (i & c & F & E). apply field_kids in F; auto. destruct F as (_ & -> & _). congruence.
  - intros K. destruct (kids_field q [] [] _ [] NE K T) as (i & c & F & E & _). exists i, c. auto.
Qed.
Lemma selects_nonnil : forall r q, selects r q -> q <> [].
Proof. intros r q (i & c & F). inversion F; subst; discriminate. Qed.
