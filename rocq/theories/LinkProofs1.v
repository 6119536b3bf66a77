(** Options of links. *)
From Coq Require Import String ZArith List Bool Arith Lia.
From Verif Require Import Base BaseProofs WireModel TypeModel TextModel CopyModel GroupModel LinkModel LinkSpec.
Import ListNotations.
Local Open Scope Z_scope.

Lemma is_ok k s : is k s = true <-> k = bs s.
Proof. apply str_eqb_eq. Qed.
Lemma is_no k s : k <> bs s -> is k s = false.
Proof. intros N. destruct (is k s) eqn:E; [|reflexivity]. apply is_ok in E. contradiction. Qed.
Lemma is_dec {A} k s (a b : A) : (if is k s then a else b) = (if list_eq_dec Z.eq_dec k (bs s) then a else b).
Proof. destruct (list_eq_dec Z.eq_dec k (bs s)) as [-> |N]; [|rewrite (is_no _ _ N); reflexivity]. assert (is (bs s) s = true) as -> by (apply is_ok; reflexivity). reflexivity. Qed.

Fixpoint json_ind' (P : json -> Prop) (h0 : P VNull) (h1 : forall b, P (VBool b)) (h2 : forall z, P (VInt z)) (h3 : forall s, P (VStr s))
  (h4 : forall m, Forall (fun kv => P (snd kv)) m -> P (VMap m)) (v : json) : P v :=
  match v with
  | VNull => h0 | VBool b => h1 b | VInt z => h2 z | VStr s => h3 s
  | VMap m => h4 m ((fix go m : Forall (fun kv => P (snd kv)) m := match m with [] => Forall_nil _ | kv :: r => Forall_cons _ (json_ind' P h0 h1 h2 h3 h4 (snd kv)) (go r) end) m)
  end.

Definition runs (l : list jcall) (p : pst) := fold_left parse_call l p.
Lemma deep v : forall p, (2 <= ps_depth p)%nat -> ps_depth (runs (calls v) p) = ps_depth p /\ ps_conf (runs (calls v) p) = ps_conf p.
Proof.
  induction v as [| | | |m IH] using json_ind'; intros p D.
  1-3: cbn; destruct (ps_depth p) as [|[|n]]; try lia; split; reflexivity.
  - cbn. destruct (ps_depth p) as [|[|n]]; try lia. split; reflexivity.
  - cbn [calls]. unfold runs. rewrite !fold_left_app. cbn [fold_left parse_call ps_depth ps_conf].
    set (q := {| ps_depth := S (ps_depth p); ps_key := ps_key p; ps_conf := ps_conf p |}).
    assert (G : forall q, (2 <= ps_depth q)%nat -> ps_depth (runs (flat_map (fun kv => JKey (fst kv) :: calls (snd kv)) m) q) = ps_depth q
      /\ ps_conf (runs (flat_map (fun kv => JKey (fst kv) :: calls (snd kv)) m) q) = ps_conf q).
    { clear -IH. induction IH as [|kv r K _ IHr]; intros q Q; [split; reflexivity|]. cbn [flat_map]. unfold runs. rewrite fold_left_app. cbn [fold_left].
      destruct (K (parse_call q (JKey (fst kv))) Q) as [A B]. unfold runs in A, B. destruct (IHr (fold_left parse_call (calls (snd kv)) (parse_call q (JKey (fst kv))))) as [C E].
      { rewrite A. exact Q. } unfold runs in C, E. rewrite C, E, A, B. split; reflexivity. }
    destruct (G q) as [A B]; [cbn; lia|]. unfold runs in A, B. rewrite A, B. split; reflexivity.
Qed.
Definition set_any (k : str) (v : json) (c : conf) : conf :=
  match v with
  | VNull => set_null k c | VBool b => set_bool k b c | VInt z => set_int k z c
  | VStr s => if is k "pv" then with_name s c else set_str k s c
  | VMap _ => c
  end.
Lemma member k v p : ps_depth p = 1%nat ->
  ps_depth (runs (JKey k :: calls v) p) = 1%nat /\ ps_conf (runs (JKey k :: calls v) p) = set_any k v (ps_conf p).
Proof.
  intros D. destruct v as [| | | |m].
  1-3: cbn; rewrite D; split; reflexivity.
  - unfold runs. cbn [calls fold_left set_any]. unfold parse_call. cbn [ps_depth ps_key ps_conf]. rewrite D. cbn [Nat.eqb orb andb].
    destruct (is k "pv"); split; reflexivity.
  - cbn [calls]. unfold runs. cbn [fold_left app]. rewrite fold_left_app. cbn [fold_left].
    assert (G : forall q, (2 <= ps_depth q)%nat -> ps_depth (runs (flat_map (fun kv => JKey (fst kv) :: calls (snd kv)) m) q) = ps_depth q
      /\ ps_conf (runs (flat_map (fun kv => JKey (fst kv) :: calls (snd kv)) m) q) = ps_conf q).
    { clear. induction m as [|kv r IHr]; intros q Q; [split; reflexivity|]. cbn [flat_map]. unfold runs. rewrite fold_left_app. cbn [fold_left].
      destruct (deep (snd kv) (parse_call q (JKey (fst kv))) Q) as [A B]. unfold runs in A, B. destruct (IHr (fold_left parse_call (calls (snd kv)) (parse_call q (JKey (fst kv))))) as [C E].
      { rewrite A. exact Q. } unfold runs in C, E. rewrite C, E, A, B. split; reflexivity. }
    set (q := parse_call (parse_call p (JKey k)) JStart).
    destruct (G q) as [A B]; [cbn; lia|]. unfold runs in A, B. cbn [parse_call ps_depth ps_conf]. rewrite A, B. cbn. rewrite D. split; reflexivity.
Qed.
Lemma parse_map m : parse (calls (VMap m)) = fold_left (fun c kv => set_any (fst kv) (snd kv) c) m conf0.
Proof.
  unfold parse. cbn [calls]. rewrite !fold_left_app. cbn [fold_left].
  assert (G : forall m p, ps_depth p = 1%nat -> ps_depth (runs (flat_map (fun kv => JKey (fst kv) :: calls (snd kv)) m) p) = 1%nat
     /\ ps_conf (runs (flat_map (fun kv => JKey (fst kv) :: calls (snd kv)) m) p) = fold_left (fun c kv => set_any (fst kv) (snd kv) c) m (ps_conf p)).
  { clear. induction m as [|[k v] r IH]; intros p D; [split; [exact D|reflexivity]|]. cbn [flat_map fst snd fold_left]. unfold runs. rewrite fold_left_app.
    destruct (member k v p D) as [A B]. unfold runs in A, B. destruct (IH _ A) as [C E]. unfold runs in C, E. rewrite E, C, B. split; reflexivity. }
  match goal with |- ps_conf (parse_call ?q JEnd) = _ => change (ps_conf (parse_call q JEnd)) with (ps_conf q) end.
  match goal with |- ps_conf (fold_left parse_call _ ?p) = _ => destruct (G m p) as [_ E]; [reflexivity|]; unfold runs in E; rewrite E; reflexivity end.
Qed.
Lemma option_last {A} (f : conf -> A) key mean :
  (forall k v c, f (set_any k v c) = if list_eq_dec Z.eq_dec k (bs key) then match mean v with Some a => a | None => f c end else f c) ->
  forall m, f (parse (calls (VMap m))) = last_of key mean (f conf0) m.
Proof.
  intros H m. rewrite parse_map. unfold last_of. generalize conf0 as c. induction m as [|[k v] r IH]; intros c; [reflexivity|].
  cbn [fold_left fst snd]. rewrite IH. rewrite H. reflexivity.
Qed.
Ltac other NE := let E := fresh in pose proof (is_no _ _ NE) as E; rewrite ?E; clear E; repeat match goal with |- context[if ?b then _ else _] => destruct b end; reflexivity.
Ltac opt := intros k v c; match goal with |- context[list_eq_dec Z.eq_dec k (bs ?s)] => destruct (list_eq_dec Z.eq_dec k (bs s)) as [-> |NE] end;
  [destruct v as [|[]| | |]; reflexivity
  |destruct v as [|b|z|s|m]; cbn [set_any]; unfold set_null, set_bool, set_int, set_str; match goal with NE : k <> _ |- _ => other NE end].
Lemma o_name k v c : cf_name (set_any k v c) = if list_eq_dec Z.eq_dec k (bs "pv") then match a_string v with Some a => a | None => cf_name c end else cf_name c.
Proof. revert k v c. opt. Qed.
Lemma o_field k v c : cf_field (set_any k v c) = if list_eq_dec Z.eq_dec k (bs "field") then match a_string v with Some a => a | None => cf_field c end else cf_field c.
Proof. revert k v c. opt. Qed.
Lemma o_defer k v c : cf_defer (set_any k v c) = if list_eq_dec Z.eq_dec k (bs "defer") then match a_bool v with Some a => a | None => cf_defer c end else cf_defer c.
Proof. revert k v c. opt. Qed.
Lemma o_pipeline k v c : cf_pipeline (set_any k v c) = if list_eq_dec Z.eq_dec k (bs "pipeline") then match a_bool v with Some a => a | None => cf_pipeline c end else cf_pipeline c.
Proof. revert k v c. opt. Qed.
Lemma o_time k v c : cf_time (set_any k v c) = if list_eq_dec Z.eq_dec k (bs "time") then match a_bool v with Some a => a | None => cf_time c end else cf_time c.
Proof. revert k v c. opt. Qed.
Lemma o_retry k v c : cf_retry (set_any k v c) = if list_eq_dec Z.eq_dec k (bs "retry") then match a_bool v with Some a => a | None => cf_retry c end else cf_retry c.
Proof. revert k v c. opt. Qed.
Lemma o_always k v c : cf_always (set_any k v c) = if list_eq_dec Z.eq_dec k (bs "always") then match a_bool v with Some a => a | None => cf_always c end else cf_always c.
Proof. revert k v c. opt. Qed.
Lemma o_atomic k v c : cf_atomic (set_any k v c) = if list_eq_dec Z.eq_dec k (bs "atomic") then match a_bool v with Some a => a | None => cf_atomic c end else cf_atomic c.
Proof. revert k v c. opt. Qed.
Lemma o_local k v c : cf_local (set_any k v c) = if list_eq_dec Z.eq_dec k (bs "local") then match a_local v with Some a => a | None => cf_local c end else cf_local c.
Proof. revert k v c. opt. Qed.
Lemma o_queue k v c : cf_queue (set_any k v c) = if list_eq_dec Z.eq_dec k (bs "Q") then match a_queue v with Some a => a | None => cf_queue c end else cf_queue c.
Proof.
  destruct (list_eq_dec Z.eq_dec k (bs "Q")) as [-> |NE].
  - destruct v as [|[]|z| |]; try reflexivity. cbn [set_any]. unfold set_int. assert (is (bs "Q") "Q" = true) as -> by reflexivity. cbn [with_queue cf_queue a_queue].
    destruct (Z.ltb_spec z 1); lia.
  - destruct v as [|b|z|s|m]; cbn [set_any]; unfold set_null, set_bool, set_int, set_str; other NE.
Qed.
Lemma str_if {A} s (a b : A) t : (if str_eqb s (bs t) then a else b) = if list_eq_dec Z.eq_dec s (bs t) then a else b.
Proof. apply is_dec. Qed.
Lemma o_proc k v c : cf_proc (set_any k v c) = if list_eq_dec Z.eq_dec k (bs "proc") then match a_proc v with Some a => a | None => cf_proc c end else cf_proc c.
Proof.
  destruct (list_eq_dec Z.eq_dec k (bs "proc")) as [-> |NE].
  - destruct v as [|[]|z|s|]; try reflexivity. cbn [set_any]. assert (is (bs "proc") "pv" = false) as -> by reflexivity. unfold set_str.
    assert (is (bs "proc") "field" = false) as -> by reflexivity. assert (is (bs "proc") "proc" = true) as -> by reflexivity. cbn [a_proc].
    rewrite !is_dec. destruct s as [|z s]; [reflexivity|]. cbn [is_nil]. destruct (list_eq_dec Z.eq_dec (z :: s) []) as [E|_]; [discriminate E|].
    repeat match goal with |- context[if list_eq_dec Z.eq_dec ?a ?b then _ else _] => destruct (list_eq_dec Z.eq_dec a b); try reflexivity end.
  - destruct v as [|b|z|s|m]; cbn [set_any]; unfold set_null, set_bool, set_int, set_str; other NE.
Qed.
Lemma o_sevr k v c : cf_sevr (set_any k v c) = if list_eq_dec Z.eq_dec k (bs "sevr") then match a_sevr v with Some a => a | None => cf_sevr c end else cf_sevr c.
Proof.
  destruct (list_eq_dec Z.eq_dec k (bs "sevr")) as [-> |NE].
  - destruct v as [|[]|z|s|]; try reflexivity. cbn [set_any]. assert (is (bs "sevr") "pv" = false) as -> by reflexivity. unfold set_str.
    assert (is (bs "sevr") "field" = false) as -> by reflexivity. assert (is (bs "sevr") "proc" = false) as -> by reflexivity. assert (is (bs "sevr") "sevr" = true) as -> by reflexivity. cbn [a_sevr].
    rewrite !is_dec.
    repeat match goal with |- context[if list_eq_dec Z.eq_dec ?a ?b then _ else _] => destruct (list_eq_dec Z.eq_dec a b); try reflexivity end.
  - destruct v as [|b|z|s|m]; cbn [set_any]; unfold set_null, set_bool, set_int, set_str; other NE.
Qed.
Definition order_read (v : json) : option Z := match v with VInt z => Some (Z.max (-1024) (Z.min (s_cast 4 z) 1024)) | _ => None end.
Lemma o_order k v c : cf_order (set_any k v c) = if list_eq_dec Z.eq_dec k (bs "monorder") then match order_read v with Some a => a | None => cf_order c end else cf_order c.
Proof.
  destruct (list_eq_dec Z.eq_dec k (bs "monorder")) as [-> |NE].
  - destruct v as [|[]|z| |]; reflexivity.
  - destruct v as [|b|z|s|m]; cbn [set_any]; unfold set_null, set_bool, set_int, set_str; other NE.
Qed.
Lemma s_cast4_id z : -2147483648 <= z < 2147483648 -> s_cast 4 z = z.
Proof.
  intros R. unfold s_cast, u_cast. change (2 ^ (8 * Z.of_nat 4)) with 4294967296. cbv zeta. change (4294967296 / 2) with 2147483648.
  destruct (Z_lt_le_dec z 0) as [N|N].
  - replace (z mod 4294967296) with (z + 4294967296) by (symmetry; rewrite <- (Z_mod_plus_full z 1); apply Z.mod_small; lia).
    repeat match goal with |- context[if ?a then _ else _] => let E := fresh in destruct a eqn:E end; apply Z.ltb_lt in H || apply Z.ltb_ge in H; lia.
  - rewrite (Z.mod_small z) by lia. repeat match goal with |- context[if ?a then _ else _] => let E := fresh in destruct a eqn:E end; apply Z.ltb_lt in H || apply Z.ltb_ge in H; lia.
Qed.
Lemma order_last m : orders_fit m -> cf_order (parse (calls (VMap m))) = last_of "monorder" a_order 0 m.
Proof.
  intros F. rewrite (option_last cf_order "monorder" order_read o_order). unfold last_of. change (cf_order conf0) with 0. generalize 0 as a.
  induction m as [|[k v] r IH]; intros a; [reflexivity|]. cbn [fold_left fst snd].
  rewrite IH by (intros z I; apply F; right; exact I). f_equal.
  destruct (list_eq_dec Z.eq_dec k (bs "monorder")) as [-> |N]; [|reflexivity]. destruct v as [| |z| |]; try reflexivity. cbn [order_read a_order].
  rewrite s_cast4_id; [reflexivity|]. apply F. left. reflexivity.
Qed.
