(** Lemmas about the primitive wire codec. *)
From Coq Require Import ZArith List Bool Lia ZifyBool ZifyNat.
From Verif Require Import Base BaseProofs WireModel WireSpec.
Import ListNotations.
Local Open Scope Z_scope.

(** ** bytes of integers *)
Lemma le_bytes_length n v : length (le_bytes n v) = n.
Proof. revert v; induction n as [|n IH]; intro v; cbn [le_bytes length]; auto. Qed.
Lemma le_bytes_bytes n v : is_bytes (le_bytes n v).
Proof.
  revert v; induction n as [|n IH]; intro v; cbn [le_bytes]; constructor; [|apply IH].
  unfold is_byte. apply Z.mod_pos_bound; lia.
Qed.
Lemma le_val_le_bytes n v : 0 <= v < 2 ^ (8 * Z.of_nat n) -> le_val (le_bytes n v) = v.
Proof.
  revert v; induction n as [|n IH]; intros v H.
  - cbn in *. lia.
  - rewrite pow256 in H. cbn [le_bytes le_val]. rewrite IH.
    + pose proof (Z.div_mod v 256). lia.
    + split; [apply Z.div_pos; lia|]. apply Z.div_lt_upper_bound; lia.
Qed.
Lemma le_val_range l : is_bytes l -> 0 <= le_val l < 2 ^ (8 * Z.of_nat (length l)).
Proof.
  induction 1 as [|x l H _ IH]; [cbn; lia|].
  cbn [length le_val]. rewrite pow256. unfold is_byte in H. lia.
Qed.
Lemma le_bytes_le_val l : is_bytes l -> le_bytes (length l) (le_val l) = l.
Proof.
  induction 1 as [|x l H _ IH]; [reflexivity|].
  cbn [length le_val le_bytes]. unfold is_byte in H. f_equal.
  - rewrite Z.mul_comm, Z_mod_plus_full. apply Z.mod_small; lia.
  - rewrite Z.mul_comm, Z_div_plus_full by lia. rewrite Z.div_small by lia. cbn. apply IH.
Qed.
Lemma mem_of_length h n v : length (mem_of h n v) = n.
Proof. unfold mem_of; destruct h; rewrite ?rev_length; apply le_bytes_length. Qed.

(** The protocol encoding of an [n] byte unsigned value. *)
Definition enc_u (be : bool) (n : nat) (v : Z) : list Z :=
  if be then rev (le_bytes n (u_cast n v)) else le_bytes n (u_cast n v).

Lemma enc_u_length be n v : length (enc_u be n v) = n.
Proof. unfold enc_u; destruct be; rewrite ?rev_length; apply le_bytes_length. Qed.

Lemma enc_u_bytes be n v : is_bytes (enc_u be n v).
Proof.
  unfold enc_u. destruct be; [|apply le_bytes_bytes].
  apply Forall_rev, le_bytes_bytes.
Qed.

Lemma wensure_out n pre be : wensure n (outbuf pre be) = true.
Proof. reflexivity. Qed.
Lemma wpush_out l pre be : wpush l (outbuf pre be) = outbuf (pre ++ l) be.
Proof. reflexivity. Qed.

Lemma to_wire_u_out h n v pre be :
  to_wire_u h n v (outbuf pre be) = outbuf (pre ++ enc_u be n v) be.
Proof.
  unfold to_wire_u, to_wire_mem. rewrite wensure_out. cbn [negb]. rewrite wpush_out.
  cbn [outbuf wbe]. unfold mem_of, enc_u. destruct be, h; cbn [xorb]; rewrite ?rev_involutive; reflexivity.
Qed.

Lemma rensure_app n e rest be :
  n <= zlen e -> rensure n (inbuf (e ++ rest) be) = true.
Proof.
  intro H. unfold rensure, inbuf; cbn. rewrite zlen_app. pose proof (zlen_nonneg rest). lia.
Qed.

Lemma from_wire_mem_in n rev0 e rest be :
  length e = n ->
  from_wire_mem n rev0 (inbuf (e ++ rest) be) = (Some (if rev0 then rev e else e), inbuf rest be).
Proof.
  intro H. unfold from_wire_mem. rewrite rensure_app by (unfold zlen; lia).
  cbn [negb inbuf rd]. subst n. rewrite firstn_len_app. unfold radvance. cbn [rd rbe rerr inbuf].
  rewrite Nat2Z.id, skipn_len_app. reflexivity.
Qed.

Lemma from_wire_u_in h n init v rest be :
  0 <= v < 2 ^ (8 * Z.of_nat n) ->
  from_wire_u h n init (inbuf (enc_u be n v ++ rest) be) = (v, inbuf rest be).
Proof.
  intro H. unfold from_wire_u. rewrite from_wire_mem_in by apply enc_u_length.
  f_equal. cbn [inbuf rbe]. unfold of_mem, enc_u. rewrite u_cast_id by assumption.
  destruct be, h; cbn [xorb]; rewrite ?rev_involutive; now apply le_val_le_bytes.
Qed.

Lemma from_wire_s_in h n init v rest be :
  (0 < n)%nat ->
  - 2 ^ (8 * Z.of_nat n - 1) <= v < 2 ^ (8 * Z.of_nat n - 1) ->
  from_wire_s h n init (inbuf (enc_u be n v ++ rest) be) = (v, inbuf rest be).
Proof.
  intros Hn H. unfold from_wire_s. rewrite from_wire_mem_in by apply enc_u_length.
  f_equal. cbn [inbuf rbe]. unfold of_mem, enc_u.
  pose proof (u_cast_range n v).
  destruct be, h; cbn [xorb]; rewrite ?rev_involutive; rewrite le_val_le_bytes by assumption;
    now apply s_cast_u_cast.
Qed.

(** ** safety of decoders *)
Lemma safe_refl b : safe_step b b.
Proof. split; [exists []; reflexivity|auto]. Qed.
Lemma safe_rfault b : safe_step b (rfault b).
Proof. split; [exists []; reflexivity|]; cbn; auto. Qed.
Lemma safe_trans a b c : safe_step a b -> safe_step b c -> safe_step a c.
Proof.
  intros [[u1 H1] E1] [[u2 H2] E2]. split.
  - exists (u1 ++ u2). rewrite <- app_assoc. congruence.
  - intro E. destruct (E1 E) as [E' R]. destruct (E2 E') as [E'' R']. split; congruence.
Qed.
Lemma safe_advance n b : rensure n b = true -> safe_step b (radvance n b).
Proof.
  intro H. unfold rensure in H. split.
  - exists (firstn (Z.to_nat n) (rd b)). cbn. now rewrite firstn_skipn.
  - intro E. rewrite E in H. discriminate.
Qed.
Lemma rensure_le n m b : rensure n b = true -> m <= n -> rensure m b = true.
Proof. unfold rensure; lia. Qed.

Lemma safe_from_wire_mem n r b : safe_step b (snd (from_wire_mem n r b)).
Proof.
  unfold from_wire_mem. destruct (rensure _ b) eqn:E; cbn [negb snd].
  - now apply safe_advance.
  - apply safe_rfault.
Qed.
Lemma safe_from_wire_u h n i : safe_decoder (from_wire_u h n i).
Proof.
  intro b. unfold from_wire_u. pose proof (safe_from_wire_mem n (xorb (rbe b) h) b) as H.
  destruct (from_wire_mem _ _ b) as [[m|] b']; exact H.
Qed.
Lemma safe_from_wire_s h n i : safe_decoder (from_wire_s h n i).
Proof.
  intro b. unfold from_wire_s. pose proof (safe_from_wire_mem n (xorb (rbe b) h) b) as H.
  destruct (from_wire_mem _ _ b) as [[m|] b']; exact H.
Qed.
Lemma safe_from_wire_size h i a : safe_decoder (from_wire_size h i a).
Proof.
  intro b. unfold from_wire_size. destruct (rensure 1 b) eqn:E; cbn [negb]; [|apply safe_rfault].
  pose proof (safe_advance _ _ E) as A.
  destruct (_ <? 254); [exact A|].
  destruct (_ =? 254).
  { eapply safe_trans; [exact A|]. apply safe_from_wire_u. }
  destruct (_ && a); [exact A|]. eapply safe_trans; [exact A|]. apply safe_rfault.
Qed.
Lemma safe_from_wire_sel h i : safe_decoder (from_wire_sel h i).
Proof.
  intro b. unfold from_wire_sel. destruct (rensure 1 b) eqn:E; cbn [negb]; [|apply safe_rfault].
  pose proof (safe_advance _ _ E) as A.
  destruct (_ <? 254); [exact A|].
  destruct (_ =? 254).
  { eapply safe_trans; [exact A|]. apply safe_from_wire_u. }
  destruct (_ =? 255); [exact A|]. eapply safe_trans; [exact A|]. apply safe_rfault.
Qed.
Lemma safe_from_wire_str h i : safe_decoder (from_wire_str h i).
Proof.
  intro b. unfold from_wire_str. pose proof (safe_from_wire_size h 0 true b) as S.
  destruct (from_wire_size h 0 true b) as [len b1]. cbn [snd] in S.
  destruct (len =? size_null); [exact S|].
  destruct (rensure len b1) eqn:E; cbn [negb snd].
  - eapply safe_trans; [exact S|]. now apply safe_advance.
  - eapply safe_trans; [exact S|]. apply safe_rfault.
Qed.
Lemma safe_from_wire_elems h n c : safe_decoder (from_wire_elems h n c).
Proof.
  induction c as [|c IH]; intro b; cbn [from_wire_elems]; [apply safe_refl|].
  destruct (rensure _ b); cbn [negb]; [|apply safe_rfault].
  pose proof (safe_from_wire_u h n 0 b) as S. destruct (from_wire_u h n 0 b) as [v b1]. cbn [snd] in S.
  pose proof (IH b1) as S2. destruct (from_wire_elems h n c b1) as [l b2]. cbn [snd] in *.
  eapply safe_trans; eassumption.
Qed.
Lemma safe_from_wire_pod h n : safe_decoder (from_wire_pod h n).
Proof.
  intro b. unfold from_wire_pod. pose proof (safe_from_wire_size h 0 false b) as S.
  destruct (from_wire_size h 0 false b) as [len b1]. cbn [snd] in S.
  eapply safe_trans; [exact S|]. apply safe_from_wire_elems.
Qed.
Lemma safe_from_wire_strs h c : safe_decoder (from_wire_strs h c).
Proof.
  induction c as [|c IH]; intro b; cbn [from_wire_strs]; [apply safe_refl|].
  pose proof (safe_from_wire_str h [] b) as S. destruct (from_wire_str h [] b) as [v b1]. cbn [snd] in S.
  pose proof (IH b1) as S2. destruct (from_wire_strs h c b1) as [l b2]. cbn [snd] in *.
  eapply safe_trans; eassumption.
Qed.
Lemma safe_from_wire_stra h : safe_decoder (from_wire_stra h).
Proof.
  intro b. unfold from_wire_stra. pose proof (safe_from_wire_size h 0 false b) as S.
  destruct (from_wire_size h 0 false b) as [len b1]. cbn [snd] in S.
  eapply safe_trans; [exact S|]. apply safe_from_wire_strs.
Qed.
Lemma safe_from_wire_status h i : safe_decoder (from_wire_status h i).
Proof.
  intro b. unfold from_wire_status. destruct (rensure 1 b) eqn:E; cbn [negb]; [|apply safe_rfault].
  pose proof (safe_advance _ _ E) as A.
  destruct (_ =? 255); [exact A|].
  pose proof (safe_from_wire_str h (st_msg i) (radvance 1 b)) as S1.
  destruct (from_wire_str h (st_msg i) (radvance 1 b)) as [m b2]. cbn [snd] in S1.
  pose proof (safe_from_wire_str h (st_trace i) b2) as S2.
  destruct (from_wire_str h (st_trace i) b2) as [t b3]. cbn [snd] in *.
  eapply safe_trans; [exact A|]. eapply safe_trans; eassumption.
Qed.
Lemma safe_from_wire_header h i : safe_decoder (from_wire_header h i).
Proof.
  intro b. unfold from_wire_header. destruct (rensure 8 b) eqn:E; cbn [negb orb]; [|apply safe_rfault].
  destruct (_ || _); [apply safe_rfault|].
  set (be := negb _).
  assert (L : 4 <=? zlen (rd b) = true) by (unfold rensure in E; lia).
  unfold rskip. cbn [rd]. rewrite L.
  set (b1 := radvance 4 _).
  assert (A : safe_step b b1).
  { split.
    - exists (firstn 4 (rd b)). unfold b1, radvance. cbn [rd].
      change (Z.to_nat 4) with 4%nat. now rewrite firstn_skipn.
    - intro F. unfold rensure in E. rewrite F in E. discriminate. }
  pose proof (safe_from_wire_u h 4 (h_len i) b1) as S.
  destruct (from_wire_u h 4 (h_len i) b1) as [len b2]. cbn [snd] in *.
  eapply safe_trans; eassumption.
Qed.
Lemma safe_from_wire_addr i : safe_decoder (from_wire_addr i).
Proof.
  intro b. unfold from_wire_addr. destruct (rensure 16 b) eqn:E; cbn [negb snd]; [|apply safe_rfault].
  now apply safe_advance.
Qed.

(** ** encodings of Size, strings, ... *)
Definition enc_size (be : bool) (n : Z) : list Z :=
  if n <? 254 then [n] else 254 :: enc_u be 4 n.

Lemma to_wire_size_out h n pre be :
  0 <= n <= 0xffffffff ->
  to_wire_size h n (outbuf pre be) = outbuf (pre ++ enc_size be n) be.
Proof.
  intro H. unfold to_wire_size, enc_size. rewrite wensure_out. cbn [negb].
  destruct (n <? 254) eqn:E.
  - rewrite wpush_out, Z.mod_small by lia. reflexivity.
  - replace (n <=? 0xffffffff) with true by lia.
    rewrite wpush_out, to_wire_u_out, <- app_assoc. reflexivity.
Qed.
Lemma to_wire_size_big h n w : 0xffffffff < n -> werr (to_wire_size h n w) = true.
Proof.
  intro H. unfold to_wire_size. destruct (wensure 1 w); cbn [negb]; [|reflexivity].
  replace (n <? 254) with false by lia. replace (n <=? 0xffffffff) with false by lia. reflexivity.
Qed.

Lemma inbuf_cons x l be : inbuf (x :: l) be = inbuf ([x] ++ l) be.
Proof. reflexivity. Qed.

Lemma radvance1 x l be : radvance 1 (inbuf (x :: l) be) = inbuf l be.
Proof. reflexivity. Qed.
Lemma rensure1 x l be : rensure 1 (inbuf (x :: l) be) = true.
Proof. unfold rensure, inbuf. cbn [rerr rd negb andb]. rewrite zlen_cons. pose proof (zlen_nonneg l). lia. Qed.

Lemma from_wire_size_in h i a n rest be :
  0 <= n <= 0xffffffff ->
  from_wire_size h i a (inbuf (enc_size be n ++ rest) be) = (n, inbuf rest be).
Proof.
  intro H. unfold enc_size. destruct (n <? 254) eqn:E; cbn [app];
    unfold from_wire_size; rewrite rensure1, radvance1; cbn [negb inbuf rd hd].
  - rewrite E. reflexivity.
  - change (254 <? 254) with false. change (254 =? 254) with true. cbv iota.
    apply from_wire_u_in. cbn. lia.
Qed.

Lemma enc_size_len be n : 0 < zlen (enc_size be n).
Proof.
  unfold enc_size. destruct (n <? 254); rewrite zlen_cons.
  - unfold zlen; cbn [length]; lia.
  - pose proof (zlen_nonneg (enc_u be 4 n)); lia.
Qed.

Definition enc_sel (be : bool) (n : Z) : list Z :=
  if n <=? -1 then [255] else enc_size be n.
Lemma to_wire_sel_out h n pre be :
  n <= 0xffffffff ->
  to_wire_sel h n (outbuf pre be) = outbuf (pre ++ enc_sel be n) be.
Proof.
  intro H. unfold to_wire_sel, enc_sel, enc_size. rewrite wensure_out. cbn [negb].
  destruct (n <=? -1) eqn:N; [reflexivity|].
  destruct (n <? 254) eqn:E.
  - rewrite wpush_out, Z.mod_small by lia. reflexivity.
  - replace (n <=? 0xffffffff) with true by lia.
    rewrite wpush_out, to_wire_u_out, <- app_assoc. reflexivity.
Qed.
Lemma from_wire_sel_in h i n rest be :
  -1 <= n <= 0xffffffff ->
  from_wire_sel h i (inbuf (enc_sel be n ++ rest) be) = (n, inbuf rest be).
Proof.
  intro H. unfold enc_sel, enc_size. destruct (n <=? -1) eqn:N; [|destruct (n <? 254) eqn:E]; cbn [app];
    unfold from_wire_sel; rewrite rensure1, radvance1; cbn [negb inbuf rd hd].
  - change (255 <? 254) with false. change (255 =? 254) with false. change (255 =? 255) with true. cbv iota.
    f_equal. lia.
  - rewrite E. reflexivity.
  - change (254 <? 254) with false. change (254 =? 254) with true. cbv iota.
    apply from_wire_u_in. cbn. lia.
Qed.

Definition enc_str (be : bool) (s : str) : list Z := enc_size be (zlen s) ++ s.
Lemma to_wire_str_out h s pre be :
  zlen s <= 0xffffffff ->
  to_wire_str h s (outbuf pre be) = outbuf (pre ++ enc_str be s) be.
Proof.
  intro H. unfold to_wire_str, enc_str. pose proof (zlen_nonneg s).
  rewrite to_wire_size_out by lia. rewrite wensure_out. cbn [negb].
  now rewrite wpush_out, app_assoc.
Qed.
Lemma from_wire_str_in h i s rest be :
  zlen s <= 0xffffffff ->
  from_wire_str h i (inbuf (enc_str be s ++ rest) be) = (s, inbuf rest be).
Proof.
  intro H. unfold from_wire_str, enc_str. pose proof (zlen_nonneg s).
  rewrite <- app_assoc, from_wire_size_in by lia.
  unfold size_null. replace (zlen s =? 2 ^ 64 - 1) with false by lia.
  rewrite rensure_app by lia. cbn [negb inbuf rd]. unfold radvance. cbn [rd inbuf rbe rerr].
  rewrite zlen_to_nat, firstn_len_app, skipn_len_app. reflexivity.
Qed.

Fixpoint enc_strs (be : bool) (l : list str) : list Z :=
  match l with [] => [] | s :: l' => enc_str be s ++ enc_strs be l' end.
Lemma to_wire_strs_out h l pre be :
  Forall (fun s => zlen s <= 0xffffffff) l ->
  to_wire_strs h l (outbuf pre be) = outbuf (pre ++ enc_strs be l) be.
Proof.
  intro H. revert pre. induction H as [|s l Hs _ IH]; intro pre; cbn [to_wire_strs enc_strs].
  - now rewrite app_nil_r.
  - rewrite to_wire_str_out by assumption. rewrite IH, app_assoc. reflexivity.
Qed.
Lemma from_wire_strs_in h l rest be :
  Forall (fun s => zlen s <= 0xffffffff) l ->
  from_wire_strs h (length l) (inbuf (enc_strs be l ++ rest) be) = (l, inbuf rest be).
Proof.
  induction 1 as [|s l Hs _ IH]; cbn [length from_wire_strs enc_strs]; [reflexivity|].
  rewrite <- app_assoc, from_wire_str_in by assumption. rewrite IH. reflexivity.
Qed.

Fixpoint enc_elems (be : bool) (n : nat) (l : list Z) : list Z :=
  match l with [] => [] | v :: l' => enc_u be n v ++ enc_elems be n l' end.
Lemma to_wire_elems_out h n l pre be :
  to_wire_elems h n l (outbuf pre be) = outbuf (pre ++ enc_elems be n l) be.
Proof.
  revert pre. induction l as [|v l IH]; intro pre; cbn [to_wire_elems enc_elems].
  - now rewrite app_nil_r.
  - rewrite to_wire_u_out, IH, app_assoc. reflexivity.
Qed.
Lemma from_wire_elems_in h n l rest be :
  Forall (fun v => 0 <= v < 2 ^ (8 * Z.of_nat n)) l ->
  from_wire_elems h n (length l) (inbuf (enc_elems be n l ++ rest) be) = (l, inbuf rest be).
Proof.
  induction 1 as [|v l Hv _ IH]; cbn [length from_wire_elems enc_elems]; [reflexivity|].
  rewrite <- app_assoc.
  rewrite rensure_app by (unfold zlen; rewrite enc_u_length; lia). cbn [negb].
  rewrite from_wire_u_in by assumption. rewrite IH. reflexivity.
Qed.

(** ** every strict prefix of an encoding is refused *)
(** A decoder which is safe and which, on [e ++ rest], consumes exactly [e],
    and whose outcome is determined by the consumed bytes. *)
Lemma prefix_faults_mem n r e1 be :
  (length e1 < n)%nat -> rerr (snd (from_wire_mem n r (inbuf e1 be))) = true.
Proof.
  intro H. unfold from_wire_mem, rensure, inbuf, zlen. cbn [rerr rd negb andb].
  replace (Z.of_nat n <=? Z.of_nat (length e1)) with false by lia. reflexivity.
Qed.
Lemma prefix_faults_u h n i e1 be :
  (length e1 < n)%nat -> rerr (snd (from_wire_u h n i (inbuf e1 be))) = true.
Proof.
  intro H. unfold from_wire_u. pose proof (prefix_faults_mem n (xorb be h) e1 be H) as P.
  change (rbe (inbuf e1 be)) with be.
  destruct (from_wire_mem _ _ _) as [[m|] b]; exact P.
Qed.

Lemma app_prefix_cases {A} (a b e1 e2 : list A) :
  a ++ b = e1 ++ e2 ->
  (exists d, a = e1 ++ d /\ e2 = d ++ b /\ d <> []) \/ (exists d, e1 = a ++ d /\ b = d ++ e2).
Proof.
  revert e1; induction a as [|x a IH]; intros e1 H; cbn in H.
  - right. exists e1. cbn. auto.
  - destruct e1 as [|y e1]; cbn in H.
    + left. exists (x :: a). cbn. repeat split; auto. discriminate.
    + injection H as -> H. destruct (IH _ H) as [(d & -> & -> & D)|(d & -> & ->)].
      * left. exists d. auto.
      * right. exists d. auto.
Qed.

Lemma prefix_faults_size h i a n be e1 e2 :
  enc_size be n = e1 ++ e2 -> e2 <> [] ->
  rerr (snd (from_wire_size h i a (inbuf e1 be))) = true.
Proof.
  intros H N. destruct e1 as [|x e1].
  { reflexivity. }
  unfold enc_size in H. destruct (n <? 254).
  - cbn in H. injection H as _ H. symmetry in H. apply app_eq_nil in H as [_ H]. contradiction.
  - injection H as <- H. unfold from_wire_size. rewrite rensure1, radvance1. cbn [negb inbuf rd hd].
    change (254 <? 254) with false. change (254 =? 254) with true. cbv iota.
    apply prefix_faults_u. pose proof (enc_u_length be 4 n) as L. rewrite H, app_length in L.
    destruct e2; [contradiction|]. cbn in L. lia.
Qed.

Lemma prefix_faults_str h i s be e1 e2 :
  zlen s <= 0xffffffff ->
  enc_str be s = e1 ++ e2 -> e2 <> [] ->
  rerr (snd (from_wire_str h i (inbuf e1 be))) = true.
Proof.
  intros L H N. unfold enc_str in H. pose proof (zlen_nonneg s).
  destruct (app_prefix_cases _ _ _ _ H) as [(d & H1 & H2 & D)|(d & H1 & H2)].
  - unfold from_wire_str.
    pose proof (prefix_faults_size h 0 true (zlen s) be e1 d H1 D) as F.
    destruct (from_wire_size h 0 true (inbuf e1 be)) as [len b1]. cbn [snd] in F.
    destruct (len =? size_null); [exact F|].
    unfold rensure. rewrite F. reflexivity.
  - subst e1. unfold from_wire_str. rewrite from_wire_size_in by lia.
    unfold size_null. replace (zlen s =? 2 ^ 64 - 1) with false by lia.
    unfold rensure, inbuf. cbn [rerr rd negb andb].
    assert (zlen d < zlen s).
    { rewrite H2, zlen_app. destruct e2; [contradiction|]. rewrite zlen_cons. pose proof (zlen_nonneg e2). lia. }
    replace (zlen s <=? zlen d) with false by lia. reflexivity.
Qed.

(** a faulted buffer stays faulted through a safe decoder *)
Lemma safe_err {A} (dec : rbuf -> A * rbuf) b : safe_decoder dec -> rerr b = true -> rerr (snd (dec b)) = true.
Proof. intros S E. destruct (S b) as [_ H]. now destruct (H E). Qed.

(** prefix lemma for sequencing two decoders *)
Lemma prefix_faults_strs h l be e1 e2 :
  Forall (fun s => zlen s <= 0xffffffff) l ->
  enc_strs be l = e1 ++ e2 -> e2 <> [] ->
  rerr (snd (from_wire_strs h (length l) (inbuf e1 be))) = true.
Proof.
  intro F. revert e1. induction F as [|s l Hs _ IH]; intros e1 H N; cbn [enc_strs] in H.
  - symmetry in H. apply app_eq_nil in H as [_ H]. contradiction.
  - cbn [length from_wire_strs].
    destruct (app_prefix_cases _ _ _ _ H) as [(d & H1 & H2 & D)|(d & H1 & H2)].
    + pose proof (prefix_faults_str h [] s be e1 d Hs H1 D) as E.
      destruct (from_wire_str h [] (inbuf e1 be)) as [v b1]. cbn [snd] in E.
      pose proof (safe_err _ b1 (safe_from_wire_strs h (length l)) E) as E2.
      destruct (from_wire_strs h (length l) b1). exact E2.
    + subst e1. rewrite from_wire_str_in by assumption.
      pose proof (IH d H2 N) as E. destruct (from_wire_strs h (length l) _). exact E.
Qed.
Lemma prefix_faults_elems h n l be e1 e2 :
  enc_elems be n l = e1 ++ e2 -> e2 <> [] ->
  Forall (fun v => 0 <= v < 2 ^ (8 * Z.of_nat n)) l ->
  rerr (snd (from_wire_elems h n (length l) (inbuf e1 be))) = true.
Proof.
  intros H N F. revert e1 H. induction F as [|s l Hs _ IH]; intros e1 H; cbn [enc_elems] in H.
  - symmetry in H. apply app_eq_nil in H as [_ H]. contradiction.
  - cbn [length from_wire_elems].
    destruct (app_prefix_cases _ _ _ _ H) as [(d & H1 & H2 & D)|(d & H1 & H2)].
    + assert (L : (length e1 < n)%nat).
      { pose proof (enc_u_length be n s) as L. rewrite H1, app_length in L.
        destruct d; [contradiction|]. cbn in L. lia. }
      unfold rensure, inbuf, zlen. cbn [rerr rd negb andb].
      replace (Z.of_nat n <=? Z.of_nat (length e1)) with false by lia. reflexivity.
    + subst e1. rewrite rensure_app by (unfold zlen; rewrite enc_u_length; lia). cbn [negb].
      rewrite from_wire_u_in by assumption.
      pose proof (IH d H2) as E. destruct (from_wire_elems h n (length l) _). exact E.
Qed.

(** ** limited output *)
Lemma wsafe_fault w : safe_wstep w (wfault w).
Proof.
  exists []. cbn. rewrite app_nil_r. repeat apply conj; auto; intros.
  - destruct (wroom w); auto. f_equal. unfold zlen; cbn [length]; lia.
Qed.
Lemma wsafe_push n l w : wensure n w = true -> zlen l <= n -> safe_wstep w (wpush l w).
Proof.
  intros E L. exists l. unfold wensure in E. cbn. repeat apply conj; auto.
  - intros r R P. rewrite R in E. lia.
  - intro H. rewrite H in E. discriminate.
Qed.
Lemma wsafe_trans a b c : safe_wstep a b -> safe_wstep b c -> safe_wstep a c.
Proof.
  intros (e1 & D1 & B1 & R1 & L1 & F1) (e2 & D2 & B2 & R2 & L2 & F2).
  exists (e1 ++ e2). repeat apply conj.
  - rewrite D2, D1, app_assoc. reflexivity.
  - congruence.
  - rewrite R2, R1. destruct (wroom a); auto. f_equal. rewrite zlen_app. lia.
  - intros r R P. rewrite zlen_app. pose proof (L1 r R P) as Q. rewrite R in R1.
    pose proof (L2 _ R1 ltac:(lia)). lia.
  - intro H. destruct (F1 H) as [H' ->]. now destruct (F2 H') as [? ->].
Qed.
Lemma wsafe_refl w : safe_wstep w w.
Proof.
  exists []. rewrite app_nil_r. repeat apply conj; auto; intros.
  - destruct (wroom w); auto. f_equal. unfold zlen; cbn [length]; lia.
Qed.
Lemma wsafe_mem m r : safe_encoder (to_wire_mem m r).
Proof.
  intro w. unfold to_wire_mem. destruct (wensure (zlen m) w) eqn:E; cbn [negb]; [|apply wsafe_fault].
  eapply wsafe_push; [eassumption|]. destruct r; rewrite ?zlen_rev; lia.
Qed.
Lemma wsafe_u h n v : safe_encoder (to_wire_u h n v).
Proof. intro w. apply wsafe_mem. Qed.
Lemma wsafe_size h n : safe_encoder (to_wire_size h n).
Proof.
  intro w. unfold to_wire_size. destruct (wensure 1 w) eqn:E; cbn [negb]; [|apply wsafe_fault].
  destruct (n <? 254); [eapply wsafe_push; [eassumption|unfold zlen; cbn [length]; lia]|].
  destruct (n <=? _); [|apply wsafe_fault].
  eapply wsafe_trans; [|apply wsafe_u]. eapply wsafe_push; [eassumption|unfold zlen; cbn [length]; lia].
Qed.
Lemma wsafe_sel h n : safe_encoder (to_wire_sel h n).
Proof.
  intro w. unfold to_wire_sel. destruct (wensure 1 w) eqn:E; cbn [negb]; [|apply wsafe_fault].
  destruct (n <=? -1); [eapply wsafe_push; [eassumption|unfold zlen; cbn [length]; lia]|].
  destruct (n <? 254); [eapply wsafe_push; [eassumption|unfold zlen; cbn [length]; lia]|].
  destruct (n <=? _); [|apply wsafe_fault].
  eapply wsafe_trans; [|apply wsafe_u]. eapply wsafe_push; [eassumption|unfold zlen; cbn [length]; lia].
Qed.
Lemma wsafe_str h s : safe_encoder (to_wire_str h s).
Proof.
  intro w. unfold to_wire_str. pose proof (wsafe_size h (zlen s) w) as S.
  set (w1 := to_wire_size h (zlen s) w) in *.
  destruct (wensure (zlen s) w1) eqn:E; cbn [negb]; (eapply wsafe_trans; [exact S|]).
  - eapply wsafe_push; [eassumption|lia].
  - apply wsafe_fault.
Qed.
Lemma wsafe_strs h l : safe_encoder (to_wire_strs h l).
Proof.
  induction l as [|s l IH]; intro w; cbn [to_wire_strs]; [apply wsafe_refl|].
  eapply wsafe_trans; [apply wsafe_str|apply IH].
Qed.
Lemma wsafe_stra h l : safe_encoder (to_wire_stra h l).
Proof. intro w. eapply wsafe_trans; [apply wsafe_size|apply wsafe_strs]. Qed.
Lemma wsafe_elems h n l : safe_encoder (to_wire_elems h n l).
Proof.
  induction l as [|s l IH]; intro w; cbn [to_wire_elems]; [apply wsafe_refl|].
  eapply wsafe_trans; [apply wsafe_u|apply IH].
Qed.
Lemma wsafe_pod h n l : safe_encoder (to_wire_pod h n l).
Proof. intro w. eapply wsafe_trans; [apply wsafe_size|apply wsafe_elems]. Qed.
Lemma wsafe_status h s : safe_encoder (to_wire_status h s).
Proof.
  intro w. unfold to_wire_status. destruct (wensure 1 w) eqn:E; cbn [negb]; [|apply wsafe_fault].
  destruct (_ && _ && _); [eapply wsafe_push; [eassumption|unfold zlen; cbn [length]; lia]|].
  eapply wsafe_trans; [|apply wsafe_str]. eapply wsafe_trans; [|apply wsafe_str].
  eapply wsafe_push; [eassumption|unfold zlen; cbn [length]; lia].
Qed.
Lemma wsafe_header h x : safe_encoder (to_wire_header h x).
Proof.
  intro w. unfold to_wire_header. destruct (wensure 8 w) eqn:E; cbn [negb]; [|apply wsafe_fault].
  eapply wsafe_trans; [|apply wsafe_u]. eapply wsafe_push; [eassumption|unfold zlen; cbn [length]; lia].
Qed.

(** errors only accumulate *)
Lemma wsafe_good w w' : safe_wstep w w' -> werr w' = false -> werr w = false.
Proof. intros (e & _ & _ & _ & _ & F) G. destruct (werr w); auto. destruct (F eq_refl). congruence. Qed.

(** [enc] on a limited buffer, if it succeeds, does what it does on an unlimited one *)
Definition agrees (enc : wbuf -> wbuf) : Prop :=
  forall w, werr (enc w) = false -> unlimited (enc w) = enc (unlimited w).
Lemma agrees_complete enc : agrees enc -> complete_encoder enc.
Proof.
  intros A w G. rewrite <- (A w G). cbn. auto.
Qed.
Lemma agrees_comp e1 e2 : agrees e1 -> agrees e2 -> safe_encoder e2 -> agrees (fun w => e2 (e1 w)).
Proof.
  intros A1 A2 S w G. rewrite A2 by assumption. f_equal. apply A1.
  eapply wsafe_good; [apply S|exact G].
Qed.
Lemma agrees_push n l : agrees (fun w => if negb (wensure n w) then wfault w else wpush l w).
Proof.
  intros w G. unfold wensure in *. unfold unlimited in *. destruct w as [d r b e]; cbn in *.
  destruct e; cbn in *; [discriminate|].
  destruct (match r with Some r0 => n <=? r0 | None => true end) eqn:E; cbn in *; [|discriminate].
  reflexivity.
Qed.
Lemma agrees_u h n v : agrees (to_wire_u h n v).
Proof. intros w G. unfold to_wire_u in *. apply (agrees_push _ _ w). exact G. Qed.
Lemma agrees_size h n : agrees (to_wire_size h n).
Proof.
  intros w G. unfold to_wire_size in *.
  assert (E : wensure 1 w = true).
  { destruct (wensure 1 w); auto. }
  assert (E' : wensure 1 (unlimited w) = true).
  { unfold wensure in *. cbn. destruct (werr w); auto. }
  rewrite E in *. rewrite E'. cbn [negb] in *.
  destruct (n <? 254); [reflexivity|].
  destruct (n <=? _); [|discriminate].
  rewrite agrees_u by assumption. reflexivity.
Qed.
Lemma agrees_str h s : agrees (to_wire_str h s).
Proof.
  unfold to_wire_str. intros w G.
  assert (S : safe_encoder (fun w1 => if negb (wensure (zlen s) w1) then wfault w1 else wpush s w1)).
  { intro w1. destruct (wensure _ w1) eqn:E; cbn [negb]; [|apply wsafe_fault].
    eapply wsafe_push; [eassumption|lia]. }
  exact (agrees_comp (to_wire_size h (zlen s)) _ (agrees_size h _) (agrees_push _ _) S w G).
Qed.
Lemma agrees_header h x : agrees (to_wire_header h x).
Proof.
  intros w G. unfold to_wire_header in *.
  assert (E : wensure 8 w = true).
  { destruct (wensure 8 w); auto. }
  assert (E' : wensure 8 (unlimited w) = true).
  { unfold wensure in *. cbn. destruct (werr w); auto. }
  rewrite E in *. rewrite E'. cbn [negb] in *.
  rewrite agrees_u by assumption. reflexivity.
Qed.
