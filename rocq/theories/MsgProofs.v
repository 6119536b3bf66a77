(** Proofs on messages: how writers and readers fit. *)
From Coq Require Import ZArith List Bool Lia ZifyBool ZifyNat.
From Verif Require Import Base BaseProofs WireModel WireSpec WireProofs SegModel SegSpec SegProofs
  BitMaskModel BitMaskSpec BitMaskProofs TypeModel TypeSpec TypeProofs TypeNameProofs
  ValueModel ValueSpec LayoutProofs ValueTypeProofs ValueSafeProofs ValueTopProofs ValueEncProofs ValueRoundProofs ValueUpdateProofs ValueProps
  MsgModel MsgSpec.
Import ListNotations.
Local Open Scope Z_scope.

(** ** Writers *)

Definition puts (be : bool) (w : bool -> wbuf -> wbuf) (e : list Z) : Prop := forall host pre, w host (outbuf pre be) = outbuf (pre ++ e) be.
Definition oputs (be : bool) (w : bool -> wbuf -> outcome wbuf) (e : list Z) : Prop :=
  forall host pre, w host (outbuf pre be) = OK (outbuf (pre ++ e) be).
Lemma puts_then be w1 w2 e1 e2 : puts be w1 e1 -> puts be w2 e2 -> puts be (fun h b => w2 h (w1 h b)) (e1 ++ e2).
Proof. intros A B h pre. now rewrite A, B, app_assoc. Qed.
Lemma oputs_then be w1 w2 e1 e2 : puts be w1 e1 -> oputs be w2 e2 -> oputs be (fun h b => w2 h (w1 h b)) (e1 ++ e2).
Proof. intros A B h pre. now rewrite A, B, app_assoc. Qed.
Lemma oputs_ok be w e : puts be w e -> oputs be (fun h b => OK (w h b)) e.
Proof. intros A h pre. now rewrite A. Qed.
Lemma puts_u be n x : puts be (fun h => to_wire_u h n x) (enc_u be n x).
Proof. intros h pre. apply to_wire_u_out. Qed.
Lemma puts_str be s : zlen s < 2 ^ 32 -> puts be (fun h => to_wire_str h s) (enc_str be s).
Proof. intros H h pre. apply to_wire_str_out. lia. Qed.
Lemma puts_cstr be s : text_ok s -> puts be (fun h => to_wire_cstr h s) (enc_str be s).
Proof. intros (H & N) h pre. unfold to_wire_cstr. rewrite c_str_id by exact N. apply to_wire_str_out. lia. Qed.
Lemma puts_size be n : 0 <= n <= 0xffffffff -> puts be (fun h => to_wire_size h n) (enc_size be n).
Proof. intros H h pre. now apply to_wire_size_out. Qed.

Definition enc_status (be : bool) (s : status) : list Z :=
  if (st_code s =? 0) && is_nil (st_msg s) && is_nil (st_trace s) then [255]
  else [st_code s] ++ enc_str be (st_msg s) ++ enc_str be (st_trace s).
Lemma puts_status be s : status_ok s -> puts be (fun h => to_wire_status h s) (enc_status be s).
Proof.
  intros (C & M & T) h pre. unfold to_wire_status, enc_status. rewrite wensure_out. cbn [negb].
  destruct (_ && _ && _); [now rewrite wpush_out|]. rewrite wpush_out. rewrite (puts_cstr be _ M), (puts_cstr be _ T).
  rewrite Z.mod_small by lia. now rewrite <- !app_assoc.
Qed.

Definition enc_ids (be : bool) (a b : Z) : list Z := enc_u be 4 a ++ enc_u be 4 b.
Definition enc_sub (be : bool) (a b c : Z) : list Z := enc_ids be a b ++ enc_u be 1 c.
Lemma puts_ids be a b : puts be (fun h => put_ids h a b) (enc_ids be a b).
Proof. exact (puts_then _ _ _ _ _ (puts_u be 4 a) (puts_u be 4 b)). Qed.
Lemma puts_sub be a b c : puts be (fun h => put_sub h a b c) (enc_sub be a b c).
Proof. exact (puts_then _ _ _ _ _ (puts_ids be a b) (puts_u be 1 c)). Qed.

(** ** Readers *)

(** reading exactly [e] gives [x] *)
Definition gets_from {A} (be : bool) (p : rprog A) (e : list Z) (x : A) : Prop :=
  forall rest, run_flat p (inbuf (e ++ rest) be) = (x, inbuf rest be).
Lemma gf_bind {A B} be (p : rprog A) (f : A -> rprog B) e1 e2 a x :
  gets_from be p e1 a -> gets_from be (f a) e2 x -> gets_from be (pbind p f) (e1 ++ e2) x.
Proof. intros P F rest. rewrite <- app_assoc. erewrite run_pbind by apply P. apply F. Qed.
Lemma gf_dbind {A B} be (p : rprog (dres A)) (f : A -> rprog (dres B)) e1 e2 a x :
  gets_from be p e1 (DOK a) -> gets_from be (f a) e2 x -> gets_from be (dbind p f) (e1 ++ e2) x.
Proof. intros P F rest. rewrite <- app_assoc. erewrite run_dbind by apply P. apply F. Qed.
Lemma gf_ret {A} be (a : A) : gets_from be (PRet a) [] a.
Proof. intro rest. reflexivity. Qed.
Lemma gf_pok {A} be (a : A) : gets_from be (pok a) [] (DOK a).
Proof. intro rest. reflexivity. Qed.
Lemma gf_good {A} be (k : bool -> rprog A) e x : gets_from be (k true) e x -> gets_from be (PGood k) e x.
Proof. intros H rest. cbn [run_flat]. apply H. Qed.
Lemma gf_nil {A} be (p : rprog A) e x : gets_from be p (e ++ []) x -> gets_from be p e x.
Proof. now rewrite app_nil_r. Qed.
Lemma gf_if_good {A B} be (bad ok : A) (ts : B) : gets_from be (if_good bad ok ts) [] (DOK (ok, ts)).
Proof. apply gf_good. apply gf_pok. Qed.
Lemma gf_u be host n i x : 0 <= x < 2 ^ (8 * Z.of_nat n) -> gets_from be (p_u host n i) (enc_u be n x) x.
Proof. intros H rest. rewrite p_u_ok. now apply from_wire_u_in. Qed.
Lemma gf_u4 be host i x : u32 x -> gets_from be (p_u host 4 i) (enc_u be 4 x) x.
Proof. intro H. apply gf_u. exact H. Qed.
Lemma gf_u1 be host i x : 0 <= x < 256 -> gets_from be (p_u host 1 i) (enc_u be 1 x) x.
Proof. intro H. apply gf_u. exact H. Qed.
Lemma gf_str be host i s : zlen s < 2 ^ 32 -> gets_from be (p_str host i) (enc_str be s) s.
Proof. intros H rest. rewrite p_str_ok. apply from_wire_str_in. lia. Qed.
Lemma gf_size be host i a n : 0 <= n <= 0xffffffff -> gets_from be (p_size host i a) (enc_size be n) n.
Proof. intros H rest. rewrite p_size_ok. now apply from_wire_size_in. Qed.
Lemma gf_status be host i s : status_ok s -> gets_from be (p_status host i) (enc_status be s) s.
Proof.
  destruct s as [c m t]. intros (C & (M & _) & (T & _)) rest. cbn [st_code st_msg st_trace] in *. rewrite p_status_ok. unfold enc_status. cbn [st_code st_msg st_trace].
  destruct (_ && _ && _) eqn:E.
  - assert (c = 0 /\ m = [] /\ t = []) as (-> & -> & ->) by (destruct m, t; cbn in E; try lia; repeat split; lia).
    cbn [app]. unfold from_wire_status. rewrite rensure1, radvance1. reflexivity.
  - cbn [app]. unfold from_wire_status. rewrite rensure1, radvance1. cbn [negb inbuf rd hd]. replace (c =? 255) with false by lia.
    change (RB ((enc_str be m ++ enc_str be t) ++ rest) be false) with (inbuf ((enc_str be m ++ enc_str be t) ++ rest) be).
    rewrite <- app_assoc, from_wire_str_in by lia. rewrite from_wire_str_in by lia. reflexivity.
Qed.
(** bytes skipped *)
Lemma gf_take {A} be n (k : option (list Z) -> rprog A) e1 e2 x : zlen e1 = n -> (forall o, gets_from be (k o) e2 x) -> gets_from be (PTake n k) (e1 ++ e2) x.
Proof.
  intros L K rest. cbn [run_flat]. rewrite <- app_assoc. pose proof (zlen_nonneg e1).
  assert (R : rensure n (inbuf (e1 ++ e2 ++ rest) be) = true).
  { unfold rensure. cbn [inbuf rd rerr negb andb]. rewrite zlen_app. pose proof (zlen_nonneg (e2 ++ rest)). lia. }
  rewrite R. unfold radvance. cbn [inbuf rd rbe rerr]. replace (Z.to_nat n) with (length e1) by (unfold zlen in L; lia).
  rewrite skipn_app, skipn_all, Nat.sub_diag, skipn_O. cbn [app]. apply K.
Qed.

(** ** Types and values *)

Definition fresh (m : member) : value := Val (flatten m) (map (fun d => (false, init_sto d)) (flatten m)).
Lemma fresh_new m : good_type m -> value_new (flatten m) = DOK (fresh m).
Proof.
  intro G. destruct (value_new_spec m (flatten m) (good_describable m G)) as [V _]; [reflexivity|]. exact (V (good_sized m G)).
Qed.
Lemma fresh_storage m : good_type m -> storage_for m (fresh m).
Proof. intro G. split; [reflexivity|]. apply init_kinds. apply nodes_init. now apply good_describable. Qed.
Lemma fresh_is_new m : good_type m -> new_value m (fresh m).
Proof.
  intro G. split; [reflexivity|]. cbn [fresh v_cells]. pose proof (nodes_init m (good_describable m G)) as NI. revert NI. generalize (flatten m). intros l NI.
  induction NI as [|d l H _ IH]; cbn [map]; constructor; auto.
Qed.
Lemma new_value_unique m v : new_value m v -> good_type m -> v = fresh m.
Proof.
  intros (N & F) G. destruct v as [n c]. cbn [v_nodes v_cells] in *. subst n. unfold fresh. f_equal. revert c F. generalize (flatten m). intro l.
  induction l as [|d l IH]; intros c F; inversion F as [|? [b s] ? ? (H1 & H2)]; subst; cbn [map]; [reflexivity|]. cbn [fst snd] in *. subst b. f_equal; [|auto].
  unfold init_sto. now rewrite H2.
Qed.
Lemma usable_fresh m : good_type m -> usable (fresh m).
Proof.
  intro G. destruct (C12_value_of_received_type m (good_describable m G)) as [(c & E & U & _)|E]; rewrite (fresh_new m G) in E; [injection E as <-; exact U|discriminate].
Qed.

Lemma gf_type be host ts m : good_type m -> (levels m <= 21)%nat ->
  gets_from be (from_wire_type host ts) (enc_type be m) (DOK (Some (Some (fresh m)), ts)).
Proof.
  intros G L rest. pose proof (good_describable m G) as D. unfold from_wire_type.
  erewrite run_pbind by (rewrite p_desc_ok; apply (decodes_all host be m D 21%nat); exact L). cbn [run_flat fst snd]. cbn [rgood rerr inbuf negb].
  destruct (flatten_cons m) as (d & r & E & _). rewrite E. cbn [is_nil]. rewrite <- E, (fresh_new m G). reflexivity.
Qed.
Lemma oputs_type be m : good_type m -> oputs be (fun h => to_wire_nodes h (flatten m)) (enc_type be m).
Proof. intros G h pre. apply to_wire_nodes_out. now apply good_describable. Qed.

Lemma null_byte be : enc_u be 1 255 = [255].
Proof. now destruct be. Qed.
Lemma desc_null n host ts rest be : from_wire_desc (S n) host ts (inbuf (255 :: rest) be) = ([], ts, inbuf rest be).
Proof.
  cbn [from_wire_desc]. change (rgood (inbuf (255 :: rest) be)) with true. cbn [negb].
  pose proof (from_wire_u_in host 1 tc_Null 255 rest be ltac:(cbn; lia)) as K. rewrite null_byte in K. cbn [app] in K. rewrite K. reflexivity.
Qed.
Definition enc_typed (be : bool) (o : option (member * value)) : list Z :=
  match o with Some (m, v) => enc_type be m ++ encv be v | None => enc_u be 1 tc_Null end.
Definition typed_ok (o : option (member * value)) : Prop := match o with Some (m, v) => value_of m v /\ (levels m <= 21)%nat | None => True end.
Lemma oputs_typed be o : typed_ok o -> oputs be (fun h => put_typed h (option_map snd o)) (enc_typed be o).
Proof.
  destruct o as [(m, v)|]; intros T h pre; cbn [option_map snd put_typed enc_typed].
  - destruct T as (V & L). pose proof V as (G & N & _). rewrite N. rewrite (oputs_type be m G). cbn [obind].
    rewrite app_assoc. exact (usable_sends h be v (value_of_usable m v V) (pre ++ enc_type be m)).
  - unfold to_wire_nulldesc. now rewrite to_wire_u_out.
Qed.
Lemma gf_typed be host ts o fuel : typed_ok o -> (length (enc_typed be o) < fuel)%nat ->
  exists r, gets_from be (from_wire_type_value fuel host ts) (enc_typed be o) (DOK (r, ts)) /\ value_or_empty r = option_map (fun p => received (snd p)) o.
Proof.
  destruct o as [(m, v)|]; intros T F; cbn [option_map snd enc_typed typed_ok] in *.
  - destruct T as (V & L). exists (Some (Some (received v))). split; [|reflexivity].
    destruct (C13_type_and_value_roundtrip be m v V L) as (et & ev & E1 & E2 & D).
    assert (et = enc_type be m).
    { pose proof (E1 false []) as E. pose proof V as (G & N & _). rewrite (oputs_type be m G) in E. cbn [app] in E. injection E as E. now symmetry. }
    assert (ev = encv be v).
    { pose proof (E2 false []) as E. pose proof (usable_sends false be v (value_of_usable m v V) []) as E'. rewrite E' in E. cbn [app] in E. injection E as E. now symmetry. }
    subst. intro rest. rewrite <- app_assoc. apply D. rewrite app_length in F. lia.
  - exists (Some None). split; [|reflexivity]. intro rest. unfold from_wire_type_value, from_wire_type. change tc_Null with 255. rewrite null_byte.
    assert (E : run_flat (p_desc 21 host ts) (inbuf ([255] ++ rest) be) = (([], ts), inbuf rest be)) by (rewrite p_desc_ok; exact (desc_null 20 host ts rest be)).
    erewrite run_dbind; [|erewrite run_pbind by exact E; reflexivity]. reflexivity.
Qed.

(** ** Acting only on complete messages *)

Definition honest {A} (p : rprog (dres (verdict A * tstore))) (b : rbuf) : Prop :=
  wp p b (fun r b' => forall x ts, r = DOK (Took x, ts) -> rerr b' = false).
Lemma honest_bind {A B} (p : rprog B) (f : B -> rprog (dres (verdict A * tstore))) b : (forall a b', honest (f a) b') -> honest (pbind p f) b.
Proof. intro H. apply wp_run. intros a b' _ _. apply H. Qed.
Lemma honest_dbind {A B} (p : rprog (dres B)) (f : B -> rprog (dres (verdict A * tstore))) b : (forall a b', honest (f a) b') -> honest (dbind p f) b.
Proof. intro H. apply honest_bind. intros [a| | |] b'; [apply H|..]; intros x ts; discriminate. Qed.
Lemma honest_not {A} (r : dres (verdict A * tstore)) b : (forall x ts, r <> DOK (Took x, ts)) -> honest (PRet r) b.
Proof. intros H x ts E. cbn in E. now apply H in E. Qed.
Lemma honest_good {A} (k : bool -> rprog (dres (verdict A * tstore))) b : (rerr b = false -> honest (k true) b) -> honest (k false) b -> honest (PGood k) b.
Proof. intros H1 H2. unfold honest, wp in *. cbn [run_flat]. unfold rgood. destruct (rerr b) eqn:E; cbn [negb]; [exact H2|exact (H1 eq_refl)]. Qed.
Lemma honest_ok {A} (r : dres (verdict A * tstore)) b : rerr b = false -> honest (PRet r) b.
Proof. intros H x ts _. exact H. Qed.
Lemma honest_if_good {A} (bad ok : verdict A) (ts : tstore) b : (forall x, bad <> Took x) -> honest (if_good bad ok ts) b.
Proof. intro N. apply honest_good; intros; [now apply honest_ok|]. apply honest_not. intros x ts' E. injection E as E _. now apply N in E. Qed.
Lemma honest_take {A} n (k : option (list Z) -> rprog (dres (verdict A * tstore))) b : (forall o b', honest (k o) b') -> honest (PTake n k) b.
Proof. intro H. unfold honest, wp. cbn [run_flat]. destruct (rensure n b); apply H. Qed.
Ltac honest_tac :=
  repeat (intros; cbv zeta; lazymatch goal with
  | |- honest (dbind _ _) _ => apply honest_dbind
  | |- honest (pbind _ _) _ => apply honest_bind
  | |- honest (PTake _ _) _ => apply honest_take
  | |- honest (if_good _ _ _) _ => apply honest_if_good; discriminate
  | |- honest (PGood _) _ => apply honest_good; cbn [negb andb]
  | |- honest (pok (Took _, _)) _ => apply honest_ok; assumption
  | |- honest (pok _) _ => apply honest_not; discriminate
  | |- honest (PRet (DOK (Took _, _))) _ => apply honest_ok; assumption
  | |- honest (PRet _) _ => apply honest_not; discriminate
  | |- honest (if ?c then _ else _) _ => destruct c
  | |- honest (let '(_, _) := ?x in _) _ => destruct x
  | |- honest (match ?x with _ => _ end) _ => destruct x
  end).
Lemma s_gpr_honest fuel host k find ts b : honest (s_gpr fuel host k find ts) b.
Proof. unfold s_gpr. honest_tac. Qed.
Lemma s_mon_honest fuel host find ts b : honest (s_mon fuel host find ts) b.
Proof. unfold s_mon. honest_tac. Qed.
Lemma s_handle_honest fuel host cmd find ts b : cmd <> 7 -> honest (s_handle host cmd find ts fuel) b.
Proof.
  intro N. unfold s_handle. replace (cmd =? 7) with false by lia.
  repeat match goal with |- honest (if ?c then _ else _) _ => destruct c end;
  lazymatch goal with
  | |- honest (s_gpr _ _ _ _ _) _ => apply s_gpr_honest
  | |- honest (s_mon _ _ _ _) _ => apply s_mon_honest
  | |- _ => unfold s_validation, s_pair, s_get_field, s_message; honest_tac
  end.
Qed.
Lemma c_update_honest fuel host ioid subcmd sts info ts b : honest (c_update fuel host ioid subcmd sts info ts) b.
Proof. unfold c_update. honest_tac. Qed.
Lemma c_mon_honest last fuel host find ts b : honest (c_mon_body last fuel host find ts) b.
Proof.
  unfold c_mon_body. apply honest_dbind. intros ((((ioid, subcmd), sts), data), ts1) b1. apply honest_good; cbn [negb]; [|honest_tac]. intro G.
  destruct (find ioid) as [info|]; [|honest_tac]. destruct (negb _); [honest_tac|]. destruct (sub subcmd 8); [honest_tac|].
  destruct (_ || _); [apply c_update_honest|honest_tac].
Qed.
Lemma c_handle_honest host cmd junk find ts fuel b : honest (c_handle host cmd junk find ts fuel) b.
Proof.
  unfold c_handle. repeat match goal with |- honest (if ?c then _ else _) _ => destruct c end;
  unfold c_validate, c_created, c_destroyed, c_validated, c_gpr, c_field, c_message; honest_tac.
Qed.

Lemma arrives_program {A} be write (read : bool -> nat -> bool -> tstore -> list Z -> dres (verdict A * tstore)) (p : nat -> bool -> tstore -> rprog (dres (verdict A * tstore))) e x (P : A -> Prop) :
  (forall fuel host cache body, read be fuel host cache body = fst (run_flat (p fuel host cache) (inbuf body be))) ->
  (forall fuel host cache b, honest (p fuel host cache) b) ->
  P x -> oputs be write e ->
  (forall fuel host cache, (length e < fuel)%nat -> gets_from be (p fuel host cache) e (DOK (Took x, cache))) ->
  arrives be write read P.
Proof.
  intros R H PX W G. exists e, x. split; [exact PX|]. split; [exact W|]. intros host fuel cache F. specialize (G fuel host cache F []). rewrite app_nil_r in G.
  split; [now rewrite R, G|]. intros e1 e2 E NE y ts X. rewrite R in X.
  pose proof (refuses_prefix _ _ _ _ _ _ G E NE) as K. specialize (H fuel host cache (inbuf e1 be) y ts X). congruence.
Qed.
