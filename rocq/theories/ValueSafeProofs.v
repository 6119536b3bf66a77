(** Decoding values from arbitrary bytes: no undefined behaviour, recursion
    bounded by the bytes present, and the result is well formed. *)
From Coq Require Import ZArith List Bool Lia ZifyBool ZifyNat.
From Verif Require Import Base BaseProofs WireModel WireSpec WireProofs SegModel SegSpec SegProofs
  BitMaskModel BitMaskSpec BitMaskProofs TypeModel TypeSpec TypeProofs TypeNameProofs
  ValueModel ValueSpec LayoutProofs ValueTypeProofs.
Import ListNotations.
Local Open Scope Z_scope.

(** ** running programs *)
Lemma run_flat_safe {A} (p : rprog A) : forall b, safe_step b (snd (run_flat p b)).
Proof.
  induction p as [a|n k IH|n k IH|k IH|k IH|be k IH|k IH]; intro b; cbn [run_flat].
  - apply safe_refl.
  - destruct (rensure n b) eqn:E.
    + eapply safe_trans; [apply (safe_advance n b E)|apply IH].
    + eapply safe_trans; [apply safe_rfault|apply IH].
  - destruct (rensure n b) eqn:E; [apply IH|]. eapply safe_trans; [apply safe_rfault|apply IH].
  - eapply safe_trans; [apply safe_rfault|apply IH].
  - apply IH.
  - eapply safe_trans; [|apply IH]. split; [exists []; reflexivity|]. cbn. auto.
  - apply IH.
Qed.

Definition left (b : rbuf) : nat := length (rd b).
Lemma safe_left b b' : safe_step b b' -> (left b' <= left b)%nat.
Proof. intros [[u E] _]. unfold left. rewrite E, app_length. lia. Qed.
Lemma safe_bytes b b' : safe_step b b' -> is_bytes (rd b) -> is_bytes (rd b').
Proof. intros [[u E] _] H. unfold is_bytes in *. rewrite E in H. now apply Forall_app in H. Qed.

(** weakest precondition *)
Definition wp {A} (p : rprog A) (b : rbuf) (Q : A -> rbuf -> Prop) : Prop :=
  Q (fst (run_flat p b)) (snd (run_flat p b)).
Lemma wp_bind {A B} (p : rprog A) (f : A -> rprog B) b Q :
  wp p b (fun a b' => wp (f a) b' Q) -> wp (pbind p f) b Q.
Proof. unfold wp. rewrite run_flat_bind. now destruct (run_flat p b). Qed.
Lemma wp_mono {A} (p : rprog A) b (Q R : A -> rbuf -> Prop) :
  wp p b Q -> (forall a b', safe_step b b' -> Q a b' -> R a b') -> wp p b R.
Proof. unfold wp. intros H K. apply K; [apply run_flat_safe|exact H]. Qed.
Lemma wp_ret {A} (a : A) b (Q : A -> rbuf -> Prop) : Q a b -> wp (PRet a) b Q.
Proof. easy. Qed.
Lemma wp_dbind {A B} (p : rprog (dres A)) (f : A -> rprog (dres B)) b Q :
  wp p b (fun r b' => match r with DOK a => wp (f a) b' Q | DThrow => Q DThrow b' | DUB => Q DUB b' | DFuel => Q DFuel b' end) ->
  wp (dbind p f) b Q.
Proof.
  intro H. unfold dbind. apply wp_bind. eapply wp_mono; [exact H|]. intros [a| | |] b' _ K; exact K.
Qed.
Lemma wp_prog {A} dec (p : rprog A) b (Q : A -> rbuf -> Prop) : buffer_program dec p ->
  Q (fst (dec b)) (snd (dec b)) -> wp p b Q.
Proof. intros H K. unfold wp. now rewrite H. Qed.

Lemma Forall_firstn {A} (P : A -> Prop) n l : Forall P l -> Forall P (firstn n l).
Proof. revert l. induction n as [|n IH]; intros [|x l]; cbn; auto. inversion 1; subst. auto. Qed.
(** ** what the primitive decoders give on arbitrary bytes *)
Lemma of_mem_range h l : is_bytes l -> 0 <= of_mem h l < 2 ^ (8 * zlen l).
Proof.
  intro H. unfold of_mem, zlen. destruct h.
  - rewrite <- rev_length. apply le_val_range. unfold is_bytes in *. now apply Forall_rev.
  - now apply le_val_range.
Qed.
Lemma from_wire_mem_facts n r b : is_bytes (rd b) ->
  match from_wire_mem n r b with
  | (Some m, b') => is_bytes m /\ length m = n /\ rerr b' = rerr b /\ rerr b = false /\ (left b' + n = left b)%nat
  | (None, b') => b' = rfault b
  end.
Proof.
  intro H. unfold from_wire_mem. destruct (rensure _ b) eqn:E; cbn [negb]; [|reflexivity].
  unfold rensure, zlen in E. unfold left. cbn [radvance rd rerr]. rewrite Nat2Z.id.
  assert (F : is_bytes (firstn n (rd b))) by (unfold is_bytes in *; now apply Forall_firstn).
  assert (L : length (firstn n (rd b)) = n) by (rewrite firstn_length; lia).
  split; [destruct r; [apply Forall_rev|]; exact F|].
  split; [destruct r; [rewrite rev_length|]; exact L|]. rewrite skipn_length. repeat split; try lia. 
Qed.
Lemma u_facts h n i b : is_bytes (rd b) -> forall x b', from_wire_u h n i b = (x, b') ->
  (x = i /\ b' = rfault b) \/ (unsigned_in n x /\ rerr b' = false /\ (left b' + n = left b)%nat).
Proof.
  intros H x b'. unfold from_wire_u. pose proof (from_wire_mem_facts n (xorb (rbe b) h) b H) as F.
  destruct (from_wire_mem _ _ b) as [[m|] b1]; intro E; injection E as <- <-.
  - right. destruct F as (F1 & F2 & F3 & F4 & F5). pose proof (of_mem_range h m F1). unfold unsigned_in, zlen in *.
    rewrite F2 in *. repeat split; try lia; congruence.
  - left. auto.
Qed.
Lemma s_cast_in n x : (0 < n)%nat -> signed_in n (s_cast n x).
Proof.
  intro N. unfold signed_in, s_cast. cbv zeta.
  assert (P : 2 ^ (8 * Z.of_nat n) = 2 * 2 ^ (8 * Z.of_nat n - 1)) by (rewrite <- Z.pow_succ_r by lia; f_equal; lia).
  rewrite P. clear P. set (p := 2 ^ (8 * Z.of_nat n - 1)).
  assert (0 < p) by (apply Z.pow_pos_nonneg; lia).
  replace (2 * p / 2) with p by (rewrite Z.mul_comm, Z.div_mul; lia).
  pose proof (Z.mod_pos_bound x (2 * p) ltac:(lia)). destruct (x mod (2 * p) <? p) eqn:E; lia.
Qed.
Lemma s_facts h n i b : is_bytes (rd b) -> (0 < n)%nat -> forall x b', from_wire_s h n i b = (x, b') ->
  (x = i /\ b' = rfault b) \/ (signed_in n x /\ rerr b' = false /\ (left b' + n = left b)%nat).
Proof.
  intros H N x b'. unfold from_wire_s. pose proof (from_wire_mem_facts n (xorb (rbe b) h) b H) as F.
  destruct (from_wire_mem _ _ b) as [[m|] b1]; intro E; injection E as <- <-.
  - right. destruct F as (F1 & F2 & F3 & F4 & F5). split; [now apply s_cast_in|]. split; [congruence|exact F5].
  - left. auto.
Qed.
Lemma byte_hd l : is_bytes l -> 0 <= hd 0 l < 256.
Proof. destruct l; cbn; [lia|]. inversion 1; subst. exact H2. Qed.
Lemma left_advance1 b : rensure 1 b = true -> (left (radvance 1 b) + 1 = left b)%nat.
Proof. unfold rensure, left, zlen. cbn [radvance rd]. rewrite skipn_length. lia. Qed.
Lemma size_facts h b : is_bytes (rd b) -> 0 <= fst (from_wire_size h 0 false b) <= 0xffffffff.
Proof. apply from_wire_size_range. Qed.
Lemma sel_facts h b : is_bytes (rd b) -> forall x b', from_wire_sel h (-1) b = (x, b') ->
  x = -1 \/ (0 <= x <= 0xffffffff /\ (left b' < left b)%nat).
Proof.
  intros H x b'. unfold from_wire_sel. destruct (rensure 1 b) eqn:E; cbn [negb].
  2:{ intro K; injection K as <- <-. now left. }
  pose proof (byte_hd _ H). pose proof (left_advance1 b E) as L.
  destruct (_ <? 254). { intro K; injection K as <- <-. right. split; lia. }
  destruct (_ =? 254).
  { intro K. apply u_facts in K; [|apply (safe_bytes b); [now apply safe_advance|exact H]].
    right. destruct K as [[-> ->]|(K1 & K2 & K3)].
    - split; [lia|]. unfold left in *. cbn [rfault rd]. lia.
    - unfold unsigned_in in K1. change (2 ^ (8 * Z.of_nat 4)) with 4294967296 in K1. split; lia. }
  destruct (_ =? 255); intro K; injection K as <- <-; now left.
Qed.
Lemma str_facts h i b : is_bytes (rd b) -> fits32 i -> fits32 (fst (from_wire_str h i b)).
Proof.
  intros H I. unfold from_wire_str. pose proof (rsize_null_range h b H) as R.
  destruct (from_wire_size h 0 true b) as [len b1]. cbn [fst] in R.
  destruct (len =? size_null) eqn:E; [cbn; unfold fits32, zlen; cbn; lia|].
  destruct R as [R|R]; [|lia].
  destruct (rensure len b1); cbn [negb fst]; [|exact I].
  unfold fits32, zlen. rewrite firstn_length. lia.
Qed.
Lemma elems_facts h n : forall c b, is_bytes (rd b) ->
  Forall (unsigned_in n) (fst (from_wire_elems h n c b)) /\ length (fst (from_wire_elems h n c b)) = c.
Proof.
  assert (Z0 : unsigned_in n 0) by (unfold unsigned_in; assert (0 < 2 ^ (8 * Z.of_nat n)) by (apply Z.pow_pos_nonneg; lia); lia).
  induction c as [|c IH]; intros b H; cbn [from_wire_elems]; [split; [constructor|reflexivity]|].
  destruct (rensure _ b) eqn:E; cbn [negb].
  - destruct (from_wire_u h n 0 b) as [v b1] eqn:U.
    assert (S : safe_step b b1) by (pose proof (safe_from_wire_u h n 0 b) as S; now rewrite U in S).
    specialize (IH b1 (safe_bytes _ _ S H)). destruct (from_wire_elems h n c b1) as [l b2]. cbn [fst] in *.
    destruct IH as [I1 I2]. split; [|cbn; lia]. constructor; [|exact I1].
    destruct (u_facts h n 0 b H _ _ U) as [[-> _]|[K _]]; auto.
  - cbn [fst]. split; [|now rewrite repeat_length]. apply Forall_forall. intros x I. apply repeat_spec in I. now subst.
Qed.
Lemma pod_facts h n b : is_bytes (rd b) ->
  Forall (unsigned_in n) (fst (from_wire_pod h n b)) /\ fits32 (fst (from_wire_pod h n b)).
Proof.
  intro H. unfold from_wire_pod. pose proof (size_facts h b H) as R.
  pose proof (safe_from_wire_size h 0 false b) as S.
  destruct (from_wire_size h 0 false b) as [len b1]. cbn [fst snd] in *.
  destruct (elems_facts h n (Z.to_nat len) b1 (safe_bytes _ _ S H)) as [A B]. split; [exact A|].
  unfold fits32, zlen. rewrite B. lia.
Qed.
Lemma strs_facts h : forall c b, is_bytes (rd b) ->
  Forall fits32 (fst (from_wire_strs h c b)) /\ length (fst (from_wire_strs h c b)) = c.
Proof.
  induction c as [|c IH]; intros b H; cbn [from_wire_strs]; [split; [constructor|reflexivity]|].
  pose proof (safe_from_wire_str h [] b) as S. pose proof (str_facts h [] b H ltac:(unfold fits32, zlen; cbn; lia)) as F.
  destruct (from_wire_str h [] b) as [s b1]. cbn [fst snd] in *.
  specialize (IH b1 (safe_bytes _ _ S H)). destruct (from_wire_strs h c b1). cbn [fst] in *.
  destruct IH. split; [now constructor|cbn; lia].
Qed.
Lemma stra_facts h b : is_bytes (rd b) ->
  Forall fits32 (fst (from_wire_stra h b)) /\ fits32 (fst (from_wire_stra h b)).
Proof.
  intro H. unfold from_wire_stra. pose proof (size_facts h b H) as R.
  pose proof (safe_from_wire_size h 0 false b) as S.
  destruct (from_wire_size h 0 false b) as [len b1]. cbn [fst snd] in *.
  destruct (strs_facts h (Z.to_nat len) b1 (safe_bytes _ _ S H)) as [A B]. split; [exact A|].
  unfold fits32, zlen. rewrite B. lia.
Qed.
(** a type description which was read without fault took at least a byte *)
Lemma p_desc_consumes h n cache b : is_bytes (rd b) ->
  rerr (snd (run_flat (p_desc n h cache) b)) = false ->
  (left (snd (run_flat (p_desc n h cache) b)) < left b)%nat.
Proof.
  intros H. destruct n as [|n]; cbn [p_desc run_flat]; (destruct (rgood b); cbn [negb]; [|discriminate]); [discriminate|].
  rewrite run_flat_bind, p_u_ok. destruct (from_wire_u h 1 tc_Null b) as [code b1] eqn:U.
  match goal with |- context [run_flat ?p b1] => pose proof (run_flat_safe p b1) as S; set (X := snd (run_flat p b1)) in * end.
  intro G. apply safe_left in S as SL.
  destruct (u_facts h 1 tc_Null b H _ _ U) as [[-> ->]|(_ & _ & L)]; [|lia].
  destruct S as [_ S]. destruct (S eq_refl). congruence.
Qed.

(** ** enough fuel *)
Lemma ext_bind {A B} (p : rprog A) (f1 f2 : A -> rprog B) b :
  (forall a b', run_flat p b = (a, b') -> safe_step b b' -> run_flat (f1 a) b' = run_flat (f2 a) b') ->
  run_flat (pbind p f1) b = run_flat (pbind p f2) b.
Proof.
  intro H. rewrite !run_flat_bind. pose proof (run_flat_safe p b) as S. destruct (run_flat p b) as [a b'] eqn:E. now apply H.
Qed.
Lemma ext_dbind {A B} (p1 p2 : rprog (dres A)) (f1 f2 : A -> rprog (dres B)) b :
  run_flat p1 b = run_flat p2 b ->
  (forall a b', run_flat p1 b = (DOK a, b') -> safe_step b b' -> run_flat (f1 a) b' = run_flat (f2 a) b') ->
  run_flat (dbind p1 f1) b = run_flat (dbind p2 f2) b.
Proof.
  intros E H. unfold dbind. rewrite !run_flat_bind. rewrite <- E. pose proof (run_flat_safe p1 b) as S.
  destruct (run_flat p1 b) as [[a| | |] b'] eqn:E'; try reflexivity. now apply H.
Qed.

(** the two node decoders agree on buffers with less than [L] bytes *)
Definition agree (n1 n2 : nodedec) (L : nat) : Prop :=
  forall d s ts b, is_bytes (rd b) -> (left b < L)%nat -> run_flat (n1 d s ts) b = run_flat (n2 d s ts) b.

Lemma dec_nodes_ext n1 n2 L : agree n1 n2 L -> forall n nodes cells ts b, is_bytes (rd b) -> (left b < L)%nat ->
  run_flat (dec_nodes n1 n nodes cells ts) b = run_flat (dec_nodes n2 n nodes cells ts) b.
Proof.
  intro A. induction n as [|n IH]; intros nodes cells ts b B LT; cbn [dec_nodes]; [reflexivity|].
  destruct nodes as [|d nodes]; [reflexivity|]. destruct cells as [|[vl s] cells]; [reflexivity|].
  destruct (f_code d =? tc_Struct).
  - apply ext_dbind; [now apply IH|reflexivity].
  - apply ext_dbind; [now apply A|]. intros a b' _ S. apply ext_dbind; [|reflexivity].
    apply IH; [eapply safe_bytes; eauto|]. apply safe_left in S. lia.
Qed.
Lemma dec_field_ext n1 n2 L : agree n1 n2 L -> forall nodes cells ts b, is_bytes (rd b) -> (left b < L)%nat ->
  run_flat (dec_field n1 nodes cells ts) b = run_flat (dec_field n2 nodes cells ts) b.
Proof.
  intros A nodes cells ts b B LT. unfold dec_field. destruct nodes as [|d nodes]; [reflexivity|].
  destruct cells as [|[vl s] cells]; [reflexivity|].
  destruct s; try (apply ext_dbind; [now apply A|reflexivity]).
  destruct (f_code d =? tc_Struct); [now apply (dec_nodes_ext n1 n2 L)|reflexivity].
Qed.
Lemma dec_new_ext n1 n2 L : agree n1 n2 L -> forall nodes ts b, is_bytes (rd b) -> (left b < L)%nat ->
  run_flat (dec_new n1 nodes ts) b = run_flat (dec_new n2 nodes ts) b.
Proof.
  intros A nodes ts b B LT. unfold dec_new. destruct (value_new nodes); try reflexivity.
  apply ext_dbind; [now apply (dec_field_ext n1 n2 L)|reflexivity].
Qed.
Lemma dec_elems_ext e1 e2 L : (forall ts b, is_bytes (rd b) -> (left b < L)%nat -> run_flat (e1 ts) b = run_flat (e2 ts) b) ->
  forall n ts b, is_bytes (rd b) -> (left b < L)%nat -> run_flat (dec_elems n e1 ts) b = run_flat (dec_elems n e2 ts) b.
Proof.
  intro A. induction n as [|n IH]; intros ts b B LT; cbn [dec_elems]; [reflexivity|].
  apply ext_dbind; [now apply A|]. intros [[o|] ts'] b' _ S; [|reflexivity]. cbn [fst snd].
  apply ext_dbind; [|reflexivity]. apply IH; [eapply safe_bytes; eauto|]. apply safe_left in S. lia.
Qed.
Lemma dec_any_ext n1 n2 host L : agree n1 n2 L -> forall ts b, is_bytes (rd b) -> (left b < S L)%nat ->
  run_flat (dec_any n1 host ts) b = run_flat (dec_any n2 host ts) b.
Proof.
  intros A ts b B LT. unfold dec_any. apply ext_bind. intros [nodes ts'] b' E S. cbn [run_flat fst snd].
  destruct (rgood b') eqn:G; cbn [negb]; [|reflexivity]. destruct (is_nil nodes); [reflexivity|].
  apply ext_dbind; [|reflexivity]. apply (dec_new_ext n1 n2 L A); [eapply safe_bytes; eauto|].
  pose proof (p_desc_consumes host 21 ts b B) as C. rewrite E in C. cbn [snd] in C.
  unfold rgood in G. specialize (C ltac:(destruct (rerr b'); [discriminate|reflexivity])). lia.
Qed.

Lemma flag_consumes h b x b' : is_bytes (rd b) -> run_flat (p_u h 1 0) b = (x, b') -> (x =? 0) = false -> (left b' < left b)%nat.
Proof.
  intros B E N. rewrite p_u_ok in E. destruct (u_facts h 1 0 b B _ _ E) as [[-> _]|(_ & _ & K)]; [discriminate|lia].
Qed.
Lemma sel_consumes h b x b' : is_bytes (rd b) -> run_flat (p_sel h (-1)) b = (x, b') -> (x <? 0) = false -> (left b' < left b)%nat.
Proof.
  intros B E N. rewrite p_sel_ok in E. destruct (sel_facts h b B _ _ E) as [->|(_ & K)]; [discriminate|lia].
Qed.

Lemma dec_node_step_ext n1 n2 host L : agree n1 n2 L -> agree (dec_node_step n1 host) (dec_node_step n2 host) (S L).
Proof.
  intros A d s ts b B LT. unfold dec_node_step. destruct s; try reflexivity.
  - destruct (f_code d =? tc_Union).
    + apply ext_bind. intros sel b' E S. destruct (sel <? 0) eqn:N; [reflexivity|].
      destruct (nth_error (f_iter d) (Z.to_nat sel)) as [[nm i]|]; [|reflexivity].
      apply ext_dbind; [|reflexivity]. apply (dec_new_ext n1 n2 L A); [eapply safe_bytes; eauto|].
      pose proof (sel_consumes _ _ _ _ B E N). lia.
    + destruct (f_code d =? tc_Any); [|reflexivity]. apply ext_dbind; [now apply (dec_any_ext n1 n2 host L)|reflexivity].
  - destruct (pod_width (f_code d)); [reflexivity|]. destruct (f_code d =? tc_StringA); [reflexivity|].
    destruct (f_code d =? tc_StructA).
    { apply ext_bind. intros alen b' _ S. apply ext_dbind; [|reflexivity].
      apply (dec_elems_ext _ _ (1 + L)); [|eapply safe_bytes; eauto|apply safe_left in S; lia].
      intros ts2 b2 B2 L2. apply ext_bind. intros flag b3 E3 S3. destruct (flag =? 0) eqn:F; [reflexivity|].
      apply ext_dbind; [|reflexivity]. apply (dec_new_ext n1 n2 L A); [eapply safe_bytes; eauto|].
      pose proof (flag_consumes _ _ _ _ B2 E3 F). lia. }
    destruct (f_code d =? tc_UnionA).
    { apply ext_bind. intros alen b' _ S. apply ext_dbind; [|reflexivity].
      apply (dec_elems_ext _ _ (1 + L)); [|eapply safe_bytes; eauto|apply safe_left in S; lia].
      intros ts2 b2 B2 L2. apply ext_bind. intros flag b3 E3 S3. destruct (flag =? 0) eqn:F; [reflexivity|].
      apply ext_bind. intros sel b4 E4 S4. destruct (sel <? 0); [reflexivity|].
      destruct (nth_error _ _) as [[nm i]|]; [|reflexivity].
      apply ext_dbind; [|reflexivity]. apply (dec_new_ext n1 n2 L A); [eapply safe_bytes; [eauto|]; eapply safe_bytes; eauto|].
      pose proof (flag_consumes _ _ _ _ B2 E3 F). apply safe_left in S4. lia. }
    destruct (f_code d =? tc_AnyA); [|reflexivity].
    apply ext_bind. intros alen b' _ S. apply ext_dbind; [|reflexivity].
    apply (dec_elems_ext _ _ (1 + L)); [|eapply safe_bytes; eauto|apply safe_left in S; lia].
    intros ts2 b2 B2 L2. apply ext_bind. intros flag b3 E3 S3. destruct (flag =? 0) eqn:F; [reflexivity|].
    apply (dec_any_ext n1 n2 host L A); [eapply safe_bytes; eauto|]. apply safe_left in S3. lia.
Qed.

Lemma agree_less n1 n2 L L' : agree n1 n2 L -> (L' <= L)%nat -> agree n1 n2 L'.
Proof. intros A H d s ts b B LT. apply A; [exact B|lia]. Qed.
Lemma dec_node_fuel host : forall f1 f2 L, (L <= f1)%nat -> (L <= f2)%nat -> agree (dec_node f1 host) (dec_node f2 host) L.
Proof.
  induction f1 as [|f1 IH]; intros f2 L H1 H2.
  - intros d s ts b B LT. lia.
  - destruct f2 as [|f2]; [intros d s ts b B LT; lia|]. cbn [dec_node].
    destruct L as [|L]; [intros d s ts b B LT; lia|].
    apply dec_node_step_ext. apply IH; lia.
Qed.

(** ** soundness *)
Definition good_cells (nodes : list fdesc) (cells : list cell) : Prop := Forall2 (fun d c => storable d (snd c)) nodes cells.
Definition is_typed (d : fdesc) : Prop := exists m, describable m = true /\ is_node m d.

Lemma flatten_typed m : describable m = true -> Forall is_typed (flatten m).
Proof.
  intro D. apply Forall_forall. intros d I.
  destruct (flatten_nodes (fun m => describable m = true) describable_hereditary m D d I) as (m' & D' & N). now exists m'.
Qed.

Definition leaf_codes : list Z :=
  [tc_Bool; tc_Int8; tc_Int16; tc_Int32; tc_Int64; tc_UInt8; tc_UInt16; tc_UInt32;
   tc_UInt64; tc_Float32; tc_Float64; tc_String; tc_Any].
Lemma leaf_code_cases c : leaf_code c = true -> In c leaf_codes \/ (tc_isarray c = true /\ In c (map tc_arrayOf leaf_codes)).
Proof.
  intro H. pose proof (leaf_byte c H) as B.
  assert (K : forallb (fun n => let c := Z.of_nat n in
     negb (leaf_code c) || existsb (Z.eqb c) leaf_codes || (tc_isarray c && existsb (Z.eqb c) (map tc_arrayOf leaf_codes))) (seq 0 256) = true) by (vm_compute; reflexivity).
  rewrite forallb_forall in K. specialize (K (Z.to_nat c)). cbv zeta in K. rewrite Z2Nat.id in K by lia.
  rewrite H in K. cbn [negb orb] in K. specialize (K ltac:(apply in_seq; lia)). apply orb_true_iff in K as [K|K].
  - left. apply existsb_exists in K as (x & I & E). apply Z.eqb_eq in E. now subst.
  - right. apply andb_true_iff in K as [K1 K]. split; [exact K1|]. apply existsb_exists in K as (x & I & E). apply Z.eqb_eq in E. now subst.
Qed.
Lemma in_zero n : unsigned_in n 0.
Proof. unfold unsigned_in. assert (0 < 2 ^ (8 * Z.of_nat n)) by (apply Z.pow_pos_nonneg; lia). lia. Qed.
Lemma sin_zero n : (0 < n)%nat -> signed_in n 0.
Proof. intro. unfold signed_in. assert (0 < 2 ^ (8 * Z.of_nat n - 1)) by (apply Z.pow_pos_nonneg; lia). lia. Qed.
Lemma init_storable d : is_typed d -> storable d (init_sto d).
Proof.
  intros (m & D & N). unfold init_sto. pose proof (node_code m d N) as C. destruct m as [code name id cs]. cbn [m_code] in C.
  destruct (describable_inv _ _ _ _ D) as [(M & _)|(M & LF & _)].
  - unfold has_members, is_array_of_compound in M. apply orb_true_iff in M as [M|M]; apply orb_true_iff in M as [M|M];
    apply Z.eqb_eq in M; subst code; rewrite M; cbn.
    + now apply st_struct. + apply st_unselected. auto.
    + apply st_untyped. now rewrite M. + apply st_untyped. now rewrite M.
  - destruct (leaf_code_cases code LF) as [I|[A I]].
    + cbn [leaf_codes In] in I. decompose [or] I; subst; match goal with [ H : _ = f_code d |- _ ] => rewrite <- H; rename H into HC | _ => idtac end; try contradiction;
      vm_compute (sto_init _); cbv iota.
      * apply st_bool; congruence.
      * eapply (st_int d 1); [rewrite <- HC; reflexivity|apply sin_zero; lia].
      * eapply (st_int d 2); [rewrite <- HC; reflexivity|apply sin_zero; lia].
      * eapply (st_int d 4); [rewrite <- HC; reflexivity|apply sin_zero; lia].
      * eapply (st_int d 8); [rewrite <- HC; reflexivity|apply sin_zero; lia].
      * eapply (st_uint d 1); [rewrite <- HC; reflexivity|apply in_zero].
      * eapply (st_uint d 2); [rewrite <- HC; reflexivity|apply in_zero].
      * eapply (st_uint d 4); [rewrite <- HC; reflexivity|apply in_zero].
      * eapply (st_uint d 8); [rewrite <- HC; reflexivity|apply in_zero].
      * apply st_float32; [congruence|apply in_zero].
      * apply st_float64; [congruence|apply in_zero].
      * apply st_str; [congruence|unfold fits32, zlen; cbn; lia].
      * apply st_unselected. right; congruence.
    + subst code. unfold sto_init. rewrite A. now apply st_untyped.
Qed.

(** result of decoding part of a value *)
Definition res_ok {A} (P : A -> Prop) (r : dres (A * tstore)) : Prop :=
  r = DThrow \/ exists x ts, r = DOK (x, ts) /\ P x /\ cache_ok ts.
Lemma res_throw {A} (P : A -> Prop) : res_ok P DThrow.
Proof. now left. Qed.
Lemma res_dok {A} (P : A -> Prop) x ts : P x -> cache_ok ts -> res_ok P (DOK (x, ts)).
Proof. right. eauto. Qed.
Lemma wp_res_dbind {A B} (P : A -> Prop) (R : B -> Prop) (p : rprog (dres (A * tstore))) (f : A * tstore -> rprog (dres (B * tstore))) b :
  wp p b (fun r _ => res_ok P r) ->
  (forall x ts b', safe_step b b' -> P x -> cache_ok ts -> wp (f (x, ts)) b' (fun r _ => res_ok R r)) ->
  wp (dbind p f) b (fun r _ => res_ok R r).
Proof.
  intros H K. apply wp_dbind. eapply wp_mono; [exact H|]. intros r b' S [->|(x & ts & -> & PX & C)]; [apply res_throw|]. now apply K.
Qed.
Lemma wp_pok {A} (P : A -> Prop) x ts b : P x -> cache_ok ts -> wp (pok (x, ts)) b (fun r _ => res_ok P r).
Proof. intros. apply wp_ret. now apply res_dok. Qed.
Lemma wp_pfault {A} (P : A -> Prop) x ts b : P x -> cache_ok ts -> wp (pfault (x, ts)) b (fun r _ => res_ok P r).
Proof. intros. unfold wp. cbn. now apply res_dok. Qed.
Lemma wp_run {A B} (p : rprog A) (f : A -> rprog B) b Q :
  (forall a b', run_flat p b = (a, b') -> safe_step b b' -> wp (f a) b' Q) -> wp (pbind p f) b Q.
Proof.
  intro H. apply wp_bind. unfold wp at 1. pose proof (run_flat_safe p b) as S.
  destruct (run_flat p b) as [a b'] eqn:E. now apply H.
Qed.

Definition node_good (node : nodedec) (L : nat) : Prop :=
  forall d s ts b, is_typed d -> f_code d <> tc_Struct -> storable d s -> cache_ok ts -> is_bytes (rd b) -> (left b < L)%nat ->
  wp (node d s ts) b (fun r _ => res_ok (storable d) r).

Lemma dec_nodes_good node L : node_good node L -> forall n nodes cells ts b,
  Forall is_typed nodes -> good_cells nodes cells -> (n <= length nodes)%nat -> cache_ok ts -> is_bytes (rd b) -> (left b < L)%nat ->
  wp (dec_nodes node n nodes cells ts) b (fun r _ => res_ok (good_cells nodes) r).
Proof.
  intro G. induction n as [|n IH]; intros nodes cells ts b T C N CO B LT; cbn [dec_nodes]; [now apply wp_pok|].
  destruct C as [|d [vl s] nodes cells C1 C2]; [cbn in N; lia|]. inversion T; subst.
  cbn [snd] in C1. destruct (Z.eqb_spec (f_code d) tc_Struct) as [E|NE].
  - eapply wp_res_dbind; [apply IH; auto; cbn in N; lia|]. intros x ts' b' S X CO'. cbn [fst snd]. apply wp_pok; [|exact CO'].
    now constructor.
  - eapply wp_res_dbind; [apply G; auto|]. intros s' ts' b' S X CO'. cbn [fst snd].
    eapply wp_res_dbind.
    { apply IH; auto; [cbn in N; lia|eapply safe_bytes; eauto|apply safe_left in S; lia]. }
    intros cells' ts2 b2 S2 X2 CO2. cbn [fst snd]. apply wp_pok; [|exact CO2]. now constructor.
Qed.
Lemma storable_struct d s : storable d s -> f_code d = tc_Struct -> s = SNull.
Proof.
  intros H E. destruct H as [d H|d x H|d x H|d n x H|d n x H|d b H|d x H|d H|d name i v H|d v H|d H|d n l H|d l H|d l H];
  try reflexivity; exfalso; rewrite E in H; vm_compute in H; try discriminate; decompose [or] H; discriminate.
Qed.
Lemma dec_field_good node L : node_good node L -> forall nodes cells ts b, nodes <> [] ->
  Forall is_typed nodes -> good_cells nodes cells -> (f_size (first_node nodes) <= length nodes)%nat -> cache_ok ts -> is_bytes (rd b) -> (left b < L)%nat ->
  wp (dec_field node nodes cells ts) b (fun r _ => res_ok (good_cells nodes) r).
Proof.
  intros G nodes cells ts b NN T C N CO B LT. unfold dec_field. destruct C as [|d [vl s] nodes cells C1 C2]; [easy|].
  cbn [first_node hd snd] in *. inversion T; subst.
  assert (K : f_code d <> tc_Struct -> wp (dbind (node d s ts) (fun r => pok ((vl, fst r) :: cells, snd r))) b
     (fun r _ => res_ok (good_cells (d :: nodes)) r)).
  { intro NE. eapply wp_res_dbind; [apply G; auto|]. intros s' ts' b' S X CO'. cbn [fst snd].
    apply wp_pok; [|exact CO']. constructor; auto. }
  pose proof (storable_struct d s C1) as SS.
  destruct s; try (apply K; intro X; apply SS in X; discriminate).
  inversion C1; subst. replace (f_code d =? tc_Struct) with true by lia. apply (dec_nodes_good node L G); auto. constructor; auto.
Qed.

Lemma new_cells_good m : describable m = true -> good_cells (flatten m) (map (fun d => (false, init_sto d)) (flatten m)).
Proof.
  intro D. pose proof (flatten_typed m D) as T. unfold good_cells. induction T as [|d l Td _ IH]; cbn [map]; constructor; auto.
  now apply init_storable.
Qed.
Lemma flatten_not_nil m : flatten m <> [].
Proof. destruct (flatten_cons m) as (d & r & -> & _). easy. Qed.

Lemma dec_new_good node L c nodes ts b : node_good node L -> describable c = true ->
  nodes = flatten c \/ nodes = firstn (f_size (first_node (flatten c))) (flatten c) ->
  cache_ok ts -> is_bytes (rd b) -> (left b < L)%nat ->
  wp (dec_new node nodes ts) b (fun r _ => res_ok (fun v => usable v /\ v_nodes v = nodes /\ nodes = flatten c) r).
Proof.
  intros G D N CO B LT. unfold dec_new.
  destruct (value_new_spec c nodes D) as [V1 V2].
  { intros j J. destruct N as [->| ->]; [reflexivity|]. now apply nth_error_firstn_lt. }
  destruct (Nat.eq_dec (f_size (first_node (flatten c))) (length (flatten c))) as [S|S].
  - assert (nodes = flatten c) as -> by (destruct N as [->| ->]; [reflexivity|]; now apply sized_firstn).
    rewrite (V1 S). cbn [v_nodes v_cells]. eapply wp_res_dbind.
    { apply (dec_field_good node L G); auto using flatten_not_nil, flatten_typed, new_cells_good. lia. }
    intros cells ts' b' ST C CO'. cbn [fst snd]. apply wp_pok; [|exact CO']. split; [now constructor|split; reflexivity].
  - rewrite (V2 S). apply res_throw.
Qed.

Lemma dec_elems_good L elem (P : value -> Prop) :
  (forall ts b, cache_ok ts -> is_bytes (rd b) -> (left b < L)%nat ->
     wp (elem ts) b (fun r _ => res_ok (fun o => forall v, o = Some (Some v) -> P v) r)) ->
  forall n ts b, cache_ok ts -> is_bytes (rd b) -> (left b < L)%nat ->
  wp (dec_elems n elem ts) b (fun r _ => res_ok (fun o => forall l, o = Some l -> length l = n /\ Forall (fun x => forall v, x = Some v -> P v) l) r).
Proof.
  intro G. induction n as [|n IH]; intros ts b CO B LT; cbn [dec_elems].
  - apply wp_pok; [|exact CO]. intros l E. injection E as <-. split; [reflexivity|constructor].
  - eapply wp_res_dbind; [now apply G|]. intros o ts' b' S U CO'. cbn [fst snd]. destruct o as [o|].
    + eapply wp_res_dbind; [apply IH; auto; [eapply safe_bytes; eauto|apply safe_left in S; lia]|].
      intros o2 ts2 b2 S2 U2 CO2. cbn [fst snd]. apply wp_pok; [|exact CO2]. intros l E. destruct o2 as [l2|]; [|discriminate].
      injection E as <-. destruct (U2 l2 eq_refl) as [U3 U4]. split; [cbn; lia|]. constructor; [|exact U4]. intros v ->. now apply U.
    + apply wp_pok; [discriminate|exact CO'].
Qed.

Lemma dec_any_good node host L ts b : node_good node L -> cache_ok ts -> is_bytes (rd b) -> (left b < S L)%nat ->
  wp (dec_any node host ts) b (fun r _ => res_ok (fun o => forall v, o = Some (Some v) -> usable v) r).
Proof.
  intros G CO B LT. unfold dec_any. apply wp_run. intros [nodes ts'] b' E S. cbn [fst snd].
  pose proof (from_wire_desc_types host 21 ts b CO B) as [C1 C2]. pose proof (p_desc_consumes host 21 ts b B) as CC.
  rewrite <- p_desc_ok in C1, C2. rewrite E in C1, C2, CC. cbn [fst snd] in C1, C2, CC.
  unfold wp. cbn [run_flat]. unfold rgood. destruct (rerr b') eqn:G'; cbn [negb].
  - apply res_dok; [discriminate|exact C1].
  - specialize (C2 eq_refl). specialize (CC eq_refl). destruct (is_nil nodes) eqn:NN.
    + apply res_dok; [discriminate|exact C1].
    + destruct C2 as [->|(m & D & ->)]; [discriminate|].
      match goal with |- res_ok ?P (fst (run_flat ?p ?b)) => change (wp p b (fun r _ => res_ok P r)) end.
      eapply wp_res_dbind.
      { apply (dec_new_good node L m); auto; [eapply safe_bytes; eauto|lia]. }
      intros v ts2 b2 S2 [U _] CO2. cbn [fst snd]. apply wp_pok; [|exact CO2]. intros v' EV. now inversion EV; subst.
Qed.

Lemma pod_elems_ok c n l : pod_width c = Some n -> Forall (unsigned_in n) l ->
  Forall (pod_elem c n) (if pod_signed c then map (s_cast n) l else l).
Proof.
  intros W F. assert (N : (0 < n)%nat).
  { unfold pod_width in W. repeat (destruct (_ || _) in W; [injection W as <-; lia|]). discriminate. }
  unfold pod_elem. destruct (pod_signed c) eqn:S.
  - apply Forall_forall. intros x I. apply in_map_iff in I as (y & <- & I). now apply s_cast_in.
  - exact F.
Qed.
Lemma node_typed_iter d : is_typed d -> f_code d = tc_Union -> forall n i, In (n, i) (f_iter d) ->
  exists c, describable c = true /\ sub_desc i (f_members d) = firstn (f_size (first_node (flatten c))) (flatten c).
Proof.
  intros (m & D & N) C n i I. pose proof (node_code m d N) as E. destruct m as [code name id cs]. cbn [m_code] in E. rewrite C in E. subst code.
  destruct (union_sub _ _ _ _ _ _ D N I) as (c & _ & _ & D' & S). eauto.
Qed.
Lemma node_typed_members d : is_typed d -> is_array_of_compound (f_code d) = true ->
  exists c, describable c = true /\ f_members d = flatten c /\ m_code c = tc_scalarOf (f_code d).
Proof.
  intros (m & D & N) C. pose proof (node_code m d N) as E. destruct m as [code name id cs]. cbn [m_code] in E. rewrite E in *.
  destruct (node_array _ _ _ _ _ C N) as [M _]. eexists. split; [eapply describable_element; eauto|]. split; [exact M|reflexivity].
Qed.
Lemma first_typed c : describable c = true -> is_typed (first_node (flatten c)) /\ f_code (first_node (flatten c)) = m_code c.
Proof.
  intro D. split; [|apply flatten_hd_code]. destruct (is_node_self c) as (d & r & E & N). rewrite E. exists c. auto.
Qed.

Lemma dec_node_step_good node host L : node_good node L -> node_good (dec_node_step node host) (S L).
Proof.
  intros G d s ts b T NS ST CO B LT. unfold dec_node_step. cbv zeta.
  destruct s as [|x|x|x|x|x|o|a].
  - apply wp_pfault; assumption.
  - inversion ST as [ | ? ? C R | ? ? C R | | | | | | | | | | | ]; subst; rewrite C; cbn [Z.eqb tc_Float32 tc_Float64 Pos.eqb];
    apply wp_run; intros y b' E S; rewrite p_u_ok in E; (apply wp_pok; [|exact CO]).
    + apply st_float32; [exact C|]. destruct (u_facts _ _ _ _ B _ _ E) as [[-> _]|[U _]]; [apply in_zero|exact U].
    + apply st_float64; [exact C|]. destruct (u_facts _ _ _ _ B _ _ E) as [[-> _]|[U _]]; [apply in_zero|exact U].
  - inversion ST as [ | | | ? n ? C R | | | | | | | | | | ]; subst. unfold int_width in C.
    repeat match goal with |- context [if ?c then _ else _] => destruct c eqn:?; [injection C as <-|] end; [| | | |discriminate];
    apply wp_run; intros y b' E S; rewrite p_s_ok in E; (apply wp_pok; [|exact CO]);
    (eapply st_int; [unfold int_width; rewrite ?Heqb0, ?Heqb1, ?Heqb2, ?Heqb3; reflexivity|]);
    (apply s_facts in E; [|exact B|lia]; destruct E as [[-> _]|[U _]]; [apply sin_zero; lia|exact U]).
  - inversion ST as [ | | | | ? n ? C R | | | | | | | | | ]; subst. unfold uint_width in C.
    repeat match goal with |- context [if ?c then _ else _] => destruct c eqn:?; [injection C as <-|] end; [| | | |discriminate];
    apply wp_run; intros y b' E S; rewrite p_u_ok in E; (apply wp_pok; [|exact CO]);
    (eapply st_uint; [unfold uint_width; rewrite ?Heqb0, ?Heqb1, ?Heqb2, ?Heqb3; reflexivity|]);
    (destruct (u_facts _ _ _ _ B _ _ E) as [[-> _]|[U _]]; [apply in_zero|exact U]).
  - inversion ST as [ | | | | | ? ? C | | | | | | | | ]; subst. replace (f_code d =? tc_Bool) with true by lia.
    apply wp_run. intros y b' E S. apply wp_pok; [|exact CO]. now apply st_bool.
  - inversion ST as [ | | | | | | ? ? C R | | | | | | | ]; subst. replace (f_code d =? tc_String) with true by lia.
    apply wp_run. intros y b' E S. rewrite p_str_ok in E. apply wp_pok; [|exact CO]. apply st_str; [exact C|].
    pose proof (str_facts host x b B R) as F. now rewrite E in F.
  - assert (C : f_code d = tc_Union \/ f_code d = tc_Any) by (inversion ST; subst; auto).
    destruct (Z.eqb_spec (f_code d) tc_Union) as [CU|NU].
    + apply wp_run. intros sel b' E S. destruct (sel <? 0) eqn:N; [apply wp_pok; [now apply st_unselected|exact CO]|].
      destruct (nth_error (f_iter d) (Z.to_nat sel)) as [[nm i]|] eqn:NE; [|now apply wp_pfault].
      apply nth_error_In in NE. destruct (node_typed_iter d T CU nm i NE) as (c & D & SD).
      eapply wp_res_dbind.
      { apply (dec_new_good node L c); auto; [eapply safe_bytes; eauto|]. pose proof (sel_consumes _ _ _ _ B E N). lia. }
      intros v ts2 b2 S2 (U & VN & _) CO2. cbn [fst snd]. apply wp_pok; [|exact CO2]. eapply st_union; eauto.
    + destruct C as [C|C]; [contradiction|]. replace (f_code d =? tc_Any) with true by lia.
      eapply wp_res_dbind; [apply (dec_any_good node host L); auto|]. intros o2 ts2 b2 S2 U CO2. cbn [fst snd].
      destruct o2 as [[v|]|]; (apply wp_pok; [|exact CO2]); [|now apply st_unselected; right|exact ST].
      apply st_any; auto.
  - destruct (pod_width (f_code d)) as [n|] eqn:W.
    { apply wp_run. intros l b' E S. rewrite p_pod_ok in E. apply wp_pok; [|exact CO].
      pose proof (pod_facts host n b B) as [P1 P2]. rewrite E in P1, P2. cbn [fst] in P1, P2. apply (st_pod d n); [exact W|now apply pod_elems_ok|].
      destruct (pod_signed _); [|exact P2]. unfold fits32, zlen in *. now rewrite map_length. }
    destruct (Z.eqb_spec (f_code d) tc_StringA) as [CS|NSA].
    { apply wp_run. intros l b' E S. rewrite p_stra_ok in E. apply wp_pok; [|exact CO].
      pose proof (stra_facts host b B) as [P1 P2]. rewrite E in P1, P2. now apply st_strs. }
    assert (FIN : f_code d = tc_StructA \/ f_code d = tc_UnionA \/ f_code d = tc_AnyA -> forall elem,
      (forall ts b, cache_ok ts -> is_bytes (rd b) -> (left b < S L)%nat ->
         wp (elem ts) b (fun r _ => res_ok (fun o => forall v, o = Some (Some v) -> usable v /\ (f_code d = tc_StructA -> v_nodes v = f_members d)) r)) ->
      wp (pbind (p_size host 0 false) (fun alen => dbind (dec_elems (Z.to_nat alen) elem ts) (fun r =>
            match fst r with
            | None => pok (SArr a, snd r)
            | Some l => pok (SArr (AVals l), snd r)
            end))) b (fun r _ => res_ok (storable d) r)).
    { intros CC elem GE. apply wp_run. intros alen b' E ST2. rewrite p_size_ok in E.
      pose proof (size_facts host b B) as R. rewrite E in R. cbn [fst] in R.
      eapply wp_res_dbind.
      { apply (dec_elems_good (S L) elem _ GE); auto; [eapply safe_bytes; eauto|apply safe_left in ST2; lia]. }
      intros o2 ts2 b2 S2 U CO2. cbn [fst snd]. destruct o2 as [l|]; (apply wp_pok; [|exact CO2]); [|exact ST].
      destruct (U l eq_refl) as [U1 U2]. apply st_vals; [exact CC| |exact U2]. unfold fits32, zlen. rewrite U1. lia. }
    destruct (Z.eqb_spec (f_code d) tc_StructA) as [C|NSt].
    { apply FIN; [auto|]. clear ts b CO B LT FIN. intros ts b CO B LT. apply wp_run. intros flag b' E S.
      destruct (flag =? 0) eqn:F; [apply wp_pok; [discriminate|exact CO]|].
      destruct (node_typed_members d T) as (c & D & M & _); [rewrite C; reflexivity|].
      eapply wp_res_dbind.
      { apply (dec_new_good node L c); auto; [rewrite M, sub_desc_0; auto|eapply safe_bytes; eauto|].
        pose proof (flag_consumes _ _ _ _ B E F). lia. }
      intros v ts2 b2 S2 (U & VN & VF) CO2. cbn [fst snd]. apply wp_pok; [|exact CO2]. intros v' EV. injection EV as <-. split; [exact U|]. intros _. congruence. }
    destruct (Z.eqb_spec (f_code d) tc_UnionA) as [C|NUn].
    { apply FIN; [auto|]. clear ts b CO B LT FIN. intros ts b CO B LT. apply wp_run. intros flag b' E S.
      destruct (flag =? 0) eqn:F; [apply wp_pok; [discriminate|exact CO]|].
      apply wp_run. intros sel b2 E2 S2. destruct (sel <? 0) eqn:N; [apply wp_pok; [discriminate|exact CO]|].
      destruct (node_typed_members d T) as (c0 & D0 & M & CD); [rewrite C; reflexivity|].
      destruct (first_typed c0 D0) as [T0 C0].
      destruct (nth_error _ (Z.to_nat sel)) as [[nm i]|] eqn:NE; [|apply wp_pfault; [discriminate|exact CO]].
      apply nth_error_In in NE. rewrite M in *.
      destruct (node_typed_iter _ T0 ltac:(rewrite C0, CD, C; reflexivity) nm i NE) as (c & D & SD).
      eapply wp_res_dbind.
      { apply (dec_new_good node L c); auto; [eapply safe_bytes; [eauto|]; eapply safe_bytes; eauto|].
        pose proof (flag_consumes _ _ _ _ B E F). apply safe_left in S2. lia. }
      intros v ts2 b3 S3 [U VN] CO2. cbn [fst snd]. apply wp_pok; [|exact CO2]. intros v' EV. injection EV as <-. split; [exact U|]. rewrite C. discriminate. }
    destruct (Z.eqb_spec (f_code d) tc_AnyA) as [C|NAn].
    { apply FIN; [auto|]. clear ts b CO B LT FIN. intros ts b CO B LT. apply wp_run. intros flag b' E S.
      destruct (flag =? 0) eqn:F; [apply wp_pok; [discriminate|exact CO]|].
      eapply wp_mono; [apply (dec_any_good node host L); auto; [eapply safe_bytes; eauto|apply safe_left in S; lia]|].
      intros r b2 _ [->|(o & ts2 & -> & U & CO2)]; [apply res_throw|]. apply res_dok; [|exact CO2].
      intros v EV. split; [now apply U|]. rewrite C. discriminate. }
    apply wp_pfault; assumption.
Qed.

Lemma dec_node_good host : forall fuel, node_good (dec_node fuel host) fuel.
Proof.
  induction fuel as [|f IH]; [intros d s ts b _ _ _ _ _ H; lia|]. cbn [dec_node]. now apply dec_node_step_good.
Qed.
