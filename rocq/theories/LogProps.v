(** C48: logger levels. *)
From Coq Require Import ZArith List Bool Lia.
From Verif Require Import Base BaseProofs LogModel.
Import ListNotations.
Local Open Scope Z_scope.

(** ** What the level of a logger should be, from the history alone *)
Section Log.
Variable glob : str -> str -> bool.
Notation step := (step glob).
Notation run := (run glob).

(** Warn, the level of a logger which nothing matches *)
Definition default_level : Z := 30.
(** the most recent matching level_set() counts; level_clear() affects only loggers not yet created.
    (created, level) *)
Definition level_step (name : str) (x : bool * Z) (e : event) : bool * Z :=
  match e with
  | Set_ p lvl => (fst x, if glob name p then Z.max 1 lvl else snd x)
  | Init _ n => (fst x || str_eqb n name, snd x)
  | Clear => (fst x, if fst x then snd x else default_level)
  end.
Definition level_of (name : str) (es : list event) : bool * Z := fold_left (level_step name) es (false, default_level).

(** no pattern is set again without level_clear() in between *)
Fixpoint once (seen : list str) (es : list event) : Prop :=
  match es with
  | [] => True
  | Set_ p _ :: es' => ~ In p seen /\ once (p :: seen) es'
  | Clear :: es' => once [] es'
  | Init _ _ :: es' => once seen es'
  end.
Fixpoint seen_after (seen : list str) (es : list event) : list str :=
  match es with
  | [] => seen
  | Set_ p _ :: es' => seen_after (p :: seen) es'
  | Clear :: es' => seen_after [] es'
  | Init _ _ :: es' => seen_after seen es'
  end.
Lemma seen_snoc : forall es seen e, seen_after seen (es ++ [e]) = match e with Set_ p _ => p :: seen_after seen es | Clear => [] | Init _ _ => seen_after seen es end.
Proof. induction es as [|[p l|i n|] es IH]; intros seen e; cbn [app seen_after]; auto; destruct e; reflexivity. Qed.
Lemma once_snoc : forall es seen e, once seen (es ++ [e]) <-> once seen es /\ match e with Set_ p _ => ~ In p (seen_after seen es) | _ => True end.
Proof.
  induction es as [|[p l|i n|] es IH]; intros seen e; cbn [app once seen_after].
  - destruct e; cbn; tauto.
  - rewrite IH. tauto.
  - apply IH.
  - apply IH.
Qed.

Lemma level_snoc : forall name es e, level_of name (es ++ [e]) = level_step name (level_of name es) e.
Proof. intros. unfold level_of. rewrite fold_left_app. reflexivity. Qed.
Lemma run_snoc : forall es e, run (es ++ [e]) = step (run es) e.
Proof. intros. unfold run. rewrite fold_left_app. reflexivity. Qed.

Lemma last_match_app : forall name c c' l, last_match glob name l (c ++ c') = last_match glob name (last_match glob name l c) c'.
Proof. induction c as [|[p x] c IH]; intros; cbn; auto. Qed.
Lemma find_conf_none : forall p c, find_conf p c = None <-> ~ In p (map fst c).
Proof.
  induction c as [|[q l] c IH]; cbn; [tauto|]. destruct (str_eqb q p) eqn:E.
  - apply str_eqb_eq in E. split; [discriminate|]. intros N. elim N. auto.
  - apply str_eqb_neq in E. rewrite IH. tauto.
Qed.
Lemma find_conf_new : forall p c, find_conf p c = None -> find_conf p (c ++ [(p, -1)]) = Some (-1).
Proof.
  induction c as [|[q l] c IH]; cbn; [rewrite str_eqb_refl; auto|]. destruct (str_eqb q p); [discriminate|auto].
Qed.
Lemma set_conf_new : forall p lvl c, find_conf p c = None -> set_conf p lvl (c ++ [(p, -1)]) = c ++ [(p, lvl)].
Proof.
  induction c as [|[q l] c IH]; cbn; [rewrite str_eqb_refl; auto|]. destruct (str_eqb q p); [discriminate|]. intros H. rewrite IH; auto.
Qed.
Lemma set_new : forall g p lvl, find_conf p (config g) = None ->
  set glob g p lvl = {| config := config g ++ [(p, Z.max 1 lvl)]; loggers := map (apply_level glob p (Z.max 1 lvl)) (loggers g) |}.
Proof.
  intros g p lvl N. unfold set. rewrite N. rewrite (find_conf_new _ _ N).
  replace (if lvl <=? 0 then 1 else lvl) with (Z.max 1 lvl) by (destruct (Z.leb_spec lvl 0); lia).
  replace (-1 =? Z.max 1 lvl) with false by (symmetry; apply Z.eqb_neq; lia). rewrite set_conf_new; auto.
Qed.
Record I (es : list event) : Prop := {
  I_seen : forall p, In p (map fst (config (run es))) <-> In p (seen_after [] es);
  I_made : forall name, fst (level_of name es) = true <-> In name (map l_name (loggers (run es)));
  I_lvl : forall x, In x (loggers (run es)) -> l_lvl x = snd (level_of (l_name x) es);
  I_new : forall name, fst (level_of name es) = false -> last_match glob name default_level (config (run es)) = snd (level_of name es)
}.
Lemma find_logger_spec : forall name l, match find_logger name l with Some x => In x l /\ l_name x = name | None => ~ In name (map l_name l) end.
Proof.
  intros name l. unfold find_logger. destruct (find _ l) as [x|] eqn:F.
  - apply find_some in F. destruct F as (A & B). apply str_eqb_eq in B. auto.
  - intros X. apply in_map_iff in X. destruct X as (x & <- & X). pose proof (find_none _ _ F x X) as Y. cbn in Y. rewrite str_eqb_refl in Y. discriminate.
Qed.
Lemma apply_name : forall p l x, l_name (apply_level glob p l x) = l_name x.
Proof. intros. unfold apply_level. destruct (glob (l_name x) p); reflexivity. Qed.
Lemma I_reach : forall es, once [] es -> I es.
Proof.
  intros es. induction es as [|e es IH] using rev_ind; intros O.
  { constructor; cbn; try tauto; auto. intros name. split; [discriminate|tauto]. }
  apply once_snoc in O. destruct O as (O & E). destruct (IH O) as [A B C D]. clear IH.
  destruct e as [p lvl|id n|].
  - assert (N : find_conf p (config (run es)) = None) by (apply find_conf_none; rewrite A; auto).
    constructor; [intros q|intros name|intros x|intros name]; rewrite run_snoc; cbn [LogModel.step]; rewrite (set_new _ p lvl N); cbn [config loggers];
      rewrite ?level_snoc, ?seen_snoc; cbn [level_step fst snd].
    + rewrite map_app, in_app_iff, A. cbn. tauto.
    + rewrite B, map_map. rewrite (map_ext (fun x => l_name (apply_level glob p (Z.max 1 lvl) x)) l_name) by (intros; apply apply_name). tauto.
    + intros H. apply in_map_iff in H. destruct H as (y & <- & Y). rewrite apply_name. unfold apply_level. specialize (C y Y).
      destruct (glob (l_name y) p); auto.
    + intros F. rewrite last_match_app. cbn. rewrite D; auto.
  - constructor; [intros q|intros name|intros x|intros name]; rewrite run_snoc; cbn [LogModel.step init config loggers];
      rewrite ?level_snoc, ?seen_snoc; cbn [level_step fst snd].
    + apply A.
    + rewrite map_app, in_app_iff, orb_true_iff, B. cbn. rewrite str_eqb_eq. tauto.
    + intros H. apply in_app_or in H. destruct H as [H|[<-|[]]]; auto. cbn [l_lvl l_name]. unfold init_level.
      pose proof (find_logger_spec n (loggers (run es))) as F. destruct (find_logger n (loggers (run es))) as [y|].
      * destruct F as (F & <-). auto.
      * apply D. destruct (fst (level_of n es)) eqn:X; auto. apply B in X. tauto.
    + rewrite orb_false_iff. intros (F & _). auto.
  - constructor; [intros q|intros name|intros x|intros name]; rewrite run_snoc; cbn [LogModel.step clear config loggers];
      rewrite ?level_snoc, ?seen_snoc; cbn [level_step fst snd map].
    + tauto.
    + apply B.
    + intros H. assert (X : fst (level_of (l_name x) es) = true) by (apply B, in_map; auto). rewrite X. auto.
    + intros ->. reflexivity.
Qed.
(** the level of every logger, created before or after the configuration, is that of the most recent
    matching level_set(), if no pattern is used twice (without level_clear() in between) *)
Theorem C48_partial : forall es, once [] es -> forall x, In x (loggers (run es)) -> l_lvl x = snd (level_of (l_name x) es).
Proof. intros es O. exact (I_lvl es (I_reach es O)). Qed.
(** without level_clear(), this is the last matching one in the list of all settings *)
Theorem C48_last_partial : forall es x pre p lvl post, once [] es -> In x (loggers (run es)) ->
  es = pre ++ Set_ p lvl :: post -> glob (l_name x) p = true -> (forall q l, In (Set_ q l) post -> glob (l_name x) q = false) -> ~ In Clear post ->
  l_lvl x = Z.max 1 lvl.
Proof.
  intros es x pre p lvl post O X E G N NC. rewrite (C48_partial es O x X), E. unfold level_of. rewrite fold_left_app. cbn [fold_left level_step]. rewrite G.
  set (c := fst (fold_left (level_step (l_name x)) pre (false, default_level))). generalize (Z.max 1 lvl). intros v. clearbody c. clear -N NC. revert c N NC.
  induction post as [|e post IH]; intros c N NC; [reflexivity|]. cbn [fold_left].
  assert (N' : forall q l, In (Set_ q l) post -> glob (l_name x) q = false) by (intros; eapply N; right; eauto).
  assert (NC' : ~ In Clear post) by (intros Z; apply NC; right; auto).
  destruct e as [q l|i n|]; cbn [level_step fst snd].
  - rewrite (N q l) by (left; reflexivity). auto.
  - auto.
  - elim NC. left. reflexivity.
Qed.
(** loggers of the same name always have the same level *)
Theorem C48_same_name : forall es x y, In x (loggers (run es)) -> In y (loggers (run es)) -> l_name x = l_name y -> l_lvl x = l_lvl y.
Proof.
  intros es. induction es as [|e es IH] using rev_ind; intros x y; [intros []|]. rewrite run_snoc. destruct e as [p lvl|id n|]; cbn [LogModel.step].
  - unfold set. destruct (match find_conf _ _ with Some l => _ | None => false end); cbn [loggers]; auto.
    intros X Y E. apply in_map_iff in X as (x' & <- & X), Y as (y' & <- & Y). rewrite !apply_name in E. unfold apply_level. rewrite E. destruct (glob (l_name y') p); auto.
  - cbn [init loggers]. intros X Y E. pose proof (find_logger_spec n (loggers (run es))) as F.
    apply in_app_or in X, Y. destruct X as [X|[<-|[]]], Y as [Y|[<-|[]]]; auto; cbn [l_lvl l_name] in *; unfold init_level; destruct (find_logger n (loggers (run es))) as [z|].
    + destruct F as (F & FN). apply IH; auto. congruence.
    + elim F. rewrite <- E. apply in_map; auto.
    + destruct F as (F & FN). apply IH; auto. congruence.
    + elim F. rewrite E. apply in_map; auto.
  - cbn [clear loggers]. auto.
Qed.
End Log.

(** Otherwise not.  Setting a pattern again to its level has no effect on a logger changed in between; *)
Definition any (name p : str) : bool := match p with 42 :: _ => true | _ => str_eqb name p end.
Theorem C48_again_refuted :
  let es := [Init 0 [97]; Set_ [42] 50; Set_ [97] 20; Set_ [42] 50] in
  exists x, In x (loggers (run any es)) /\ any (l_name x) [42] = true /\ l_lvl x = 20.
Proof. eexists. split; [left; reflexivity|]. split; reflexivity. Qed.
(** and a pattern set again keeps its old place for loggers created later: the same history gives
    two loggers different levels, depending on when they were created *)
Theorem C48_order_refuted :
  let sets := [Set_ [42] 50; Set_ [97] 20; Set_ [42] 10] in
  map l_lvl (loggers (run any (Init 0 [97] :: sets))) = [10] /\ map l_lvl (loggers (run any (sets ++ [Init 0 [97]]))) = [20].
Proof. split; reflexivity. Qed.
Example C48_nonvacuous :
  let es := [Set_ [42] 50; Init 0 [97]; Init 1 [98]; Set_ [97] 20; Init 2 [97]; Clear; Set_ [42] (-3); Init 3 [99]] in
  once [] es /\ map (fun x => (l_id x, l_lvl x)) (loggers (run any es)) = [(0%nat, 1); (1%nat, 1); (2%nat, 1); (3%nat, 1)].
Proof. split; [cbn; intuition discriminate|reflexivity]. Qed.

(** ** $PVXS_LOG *)
(** text joined with commas *)
Fixpoint join (l : list str) : str := match l with [] => [] | [x] => x | x :: l' => x ++ 44 :: join l' end.
(** the names of levels *)
Inductive level_name : str -> Z -> Prop :=
| name_debug : level_name [68; 69; 66; 85; 71] 50   (* DEBUG *)
| name_info : level_name [73; 78; 70; 79] 40        (* INFO *)
| name_warn : level_name [87; 65; 82; 78] 30        (* WARN *)
| name_err : level_name [69; 82; 82] 20             (* ERR *)
| name_crit : level_name [67; 82; 73; 84] 10.       (* CRIT *)
Lemma name2lvl_spec : forall s l, name2lvl s = Some l <-> level_name s l.
Proof.
  intros s l. split.
  - unfold name2lvl. intros X. repeat match type of X with (if str_eqb s ?x then _ else _) = _ => let E := fresh "E" in destruct (str_eqb s x) eqn:E; [apply str_eqb_eq in E; subst s; inversion X; constructor|] end. discriminate X.
  - intros N. destruct N; reflexivity.
Qed.
(** an entry: "key=LEVEL" sets the level; anything else does nothing *)
Inductive entry : str -> list (str * Z) -> Prop :=
| entry_set : forall key val lvl, key <> [] -> ~ In 61 key -> level_name val lvl -> entry (key ++ 61 :: val) [(key, lvl)]
| entry_key : forall val, entry (61 :: val) []
| entry_bad : forall key val, ~ In 61 key -> (forall lvl, ~ level_name val lvl) -> entry (key ++ 61 :: val) []
| entry_none : forall s, ~ In 61 s -> entry s [].
Lemma scan_spec : forall c s, (In c s -> exists pre post, s = pre ++ c :: post /\ ~ In c pre /\ scan c s = length pre) /\ (~ In c s -> scan c s = length s).
Proof.
  intros c. induction s as [|x s (A & B)]; [split; [intros []|reflexivity]|]. cbn [scan]. destruct (Z.eqb_spec x c) as [->|N].
  - split; [|intros X; elim X; left; reflexivity]. intros _. exists [], s. auto.
  - split.
    + intros [->|X]; [congruence|]. destruct (A X) as (pre & post & -> & NI & ->). exists (x :: pre), post. repeat split; auto. intros [Y|Y]; congruence || tauto.
    + intros X. cbn. rewrite B; auto. intros Y. apply X. right. auto.
Qed.
Lemma scan_app : forall c s t, ~ In c s -> scan c (s ++ c :: t) = length s.
Proof. induction s as [|x s IH]; intros t N; cbn; [rewrite Z.eqb_refl; auto|]. destruct (Z.eqb_spec x c); [subst; elim N; left; reflexivity|]. f_equal. apply IH. intros X. apply N. right; auto. Qed.
Lemma scan_app2 : forall c s t, ~ In c s -> (length s <= scan c (s ++ t))%nat.
Proof. induction s as [|x s IH]; intros t N; cbn; [lia|]. destruct (Z.eqb_spec x c); [subst; elim N; left; reflexivity|]. apply le_n_S, IH. intros X. apply N. right; auto. Qed.
(** what the loop does with one entry, [s], followed by [rest] *)
Definition one (s : str) (rest : str) : list (str * Z) :=
  let env := s ++ rest in
  let sep := scan 44 env in
  let eq := scan 61 env in
  if (sep =? 0)%nat then []
  else if (eq <? sep)%nat then
    match firstn eq env, firstn (sep - eq - 1) (skipn (eq + 1) env) with
    | [], _ | _, [] => []
    | k, v => match name2lvl v with Some l => [(k, l)] | None => [] end
    end
  else [].
Lemma firstn_exact : forall (A : Type) (l l' : list A), firstn (length l) (l ++ l') = l.
Proof. intros. rewrite firstn_app, firstn_all, Nat.sub_diag. cbn. apply app_nil_r. Qed.
Lemma skipn_exact : forall (A : Type) (l l' : list A), skipn (length l) (l ++ l') = l'.
Proof. intros. rewrite skipn_app, skipn_all, Nat.sub_diag. reflexivity. Qed.
Lemma one_spec : forall s rest r, ~ In 44 s -> (rest = [] \/ exists t, rest = 44 :: t) -> entry s r -> one s rest = r.
Proof.
  intros s rest r N R E. unfold one. cbv zeta.
  assert (SEP : scan 44 (s ++ rest) = length s).
  { destruct R as [->|(t & ->)]; [rewrite app_nil_r; apply (proj2 (scan_spec 44 s)); auto|apply scan_app; auto]. }
  rewrite SEP. destruct s as [|c s].
  { cbn. inversion E; subst; auto; destruct key; discriminate. }
  cbn [length Nat.eqb]. change (S (length s)) with (length (c :: s)). set (s0 := c :: s) in *.
  assert (K : forall key val, s0 = key ++ 61 :: val -> ~ In 61 key ->
     scan 61 (s0 ++ rest) = length key /\ (length key <? length s0)%nat = true /\ firstn (length key) (s0 ++ rest) = key /\
     firstn (length s0 - length key - 1) (skipn (length key + 1) (s0 ++ rest)) = val).
  { intros key val E0 NK. rewrite E0, <- app_assoc. cbn [app]. split; [|split; [|split]].
    - apply scan_app; auto.
    - apply Nat.ltb_lt. rewrite app_length. cbn [length]. lia.
    - apply firstn_exact.
    - replace (length (key ++ 61%Z :: val) - length key - 1)%nat with (length val) by (rewrite app_length; cbn [length]; lia).
      replace (key ++ 61%Z :: val ++ rest) with ((key ++ [61%Z]) ++ val ++ rest) by (rewrite <- app_assoc; reflexivity).
      replace (length key + 1)%nat with (length (key ++ [61%Z])) by (rewrite app_length; reflexivity).
      rewrite skipn_exact. apply firstn_exact. }
  clearbody s0. destruct E as [key val lvl H H0 H1|val|key val H H0|s1 H].
  - destruct (K key val) as (-> & -> & -> & ->); auto. apply name2lvl_spec in H1. destruct key; [congruence|]. destruct val; [discriminate|]. rewrite H1. reflexivity.
  - destruct (K [] val) as (-> & -> & -> & _); auto.
  - destruct (K key val) as (-> & -> & -> & ->); auto. assert (H1 : name2lvl val = None) by (destruct (name2lvl val) eqn:X; auto; apply name2lvl_spec in X; elim (H0 _ X)). destruct key; auto. destruct val; auto. rewrite H1. reflexivity.
  - replace (scan 61 (s1 ++ rest) <? length s1)%nat with false; auto. symmetry. apply Nat.ltb_ge. apply scan_app2. auto.
Qed.
Lemma config_env_step : forall f s rest, (s ++ rest) <> [] -> ~ In 44 s -> (rest = [] \/ exists t, rest = 44 :: t) ->
  config_env (S f) (s ++ rest) = one s rest ++ config_env f (tl rest).
Proof.
  intros f s rest NE N R. unfold one. destruct (s ++ rest) as [|c e] eqn:E; [congruence|]. cbn [config_env]. rewrite <- E. cbv zeta.
  assert (SEP : scan 44 (s ++ rest) = length s).
  { destruct R as [->|(t & ->)]; [rewrite app_nil_r; apply (proj2 (scan_spec 44 s)); auto|apply scan_app; auto]. }
  rewrite SEP, skipn_exact. apply f_equal2; [repeat match goal with |- context [match firstn ?a ?b with _ => _ end] => destruct (firstn a b); try reflexivity end|]. destruct R as [->|(t & ->)]; reflexivity.
Qed.
(** any text is read entry by entry *)
Theorem C48_env : forall l r, l <> [] -> Forall (fun s => ~ In 44 s) l -> Forall2 entry l r ->
  config_env (S (length (join l))) (join l) = concat r.
Proof.
  intros l r NE F E. assert (G : forall f, (length (join l) < f)%nat -> config_env f (join l) = concat r); [|apply G; lia].
  clear NE. revert F. induction E as [|s r0 l r E1 E IH]; intros F f L.
  { destruct f; reflexivity. }
  inversion F; subst. destruct f as [|f]; [lia|]. destruct l as [|s2 l].
  - inversion E; subst. cbn [join concat]. rewrite app_nil_r. destruct s as [|c s].
    { cbn [config_env]. rewrite <- (one_spec [] [] r0); auto. }
    rewrite <- (app_nil_r (c :: s)) at 1. rewrite config_env_step; auto; [|discriminate]. rewrite (one_spec _ _ r0); auto. destruct f; cbn; apply app_nil_r.
  - change (join (s :: s2 :: l)) with (s ++ 44 :: join (s2 :: l)) in *. rewrite config_env_step; [|destruct s; discriminate|auto|right; eexists; reflexivity].
    cbn [tl]. rewrite (one_spec _ _ r0); [|auto|right; eexists; reflexivity|auto]. cbn [concat]. f_equal. rewrite app_length in L. cbn [length] in L. apply IH; auto. lia.
Qed.
Example C48_env_example : (* "a=DEBUG,,b*=ERR,c,=,d=X" *)
  let t := [97; 61; 68; 69; 66; 85; 71; 44; 44; 98; 42; 61; 69; 82; 82; 44; 99; 44; 61; 44; 100; 61; 88] in
  config_env (S (length t)) t = [([97], 50); ([98; 42], 20)] /\
  join [[97; 61; 68; 69; 66; 85; 71]; []; [98; 42; 61; 69; 82; 82]; [99]; [61]; [100; 61; 88]] = t /\
  Forall2 entry [[97; 61; 68; 69; 66; 85; 71]; []; [98; 42; 61; 69; 82; 82]; [99]; [61]; [100; 61; 88]] [[([97], 50)]; []; [([98; 42], 20)]; []; []; []].
Proof.
  split; [reflexivity|]. split; [reflexivity|].
  repeat apply Forall2_cons; try apply Forall2_nil.
  - apply (entry_set [97] [68; 69; 66; 85; 71] 50); cbn; try discriminate; try constructor. lia.
  - apply entry_none; cbn; lia.
  - apply (entry_set [98; 42] [69; 82; 82] 20); cbn; try discriminate; try constructor. lia.
  - apply entry_none; cbn; lia.
  - apply entry_key.
  - apply (entry_bad [100] [88]); [cbn; lia|]. intros lvl X. inversion X.
Qed.

Print Assumptions C48_partial.
Print Assumptions C48_last_partial.
Print Assumptions C48_same_name.
Print Assumptions C48_again_refuted.
Print Assumptions C48_order_refuted.
Print Assumptions C48_env.
