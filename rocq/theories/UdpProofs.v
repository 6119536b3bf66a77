(** Proofs about the decoder of UDP datagrams. *)
From Coq Require Import ZArith List Bool Lia ZifyBool ZifyNat.
From Verif Require Import Base BaseProofs WireModel WireSpec WireProofs UdpModel UdpSpec.
Import ListNotations.
Local Open Scope Z_scope.

(** ** Decoders of single items: they succeed exactly on the format *)
Lemma le_val_fold : forall l, le_val l = fold_right (fun d acc => d + 256 * acc) 0 l.
Proof. induction l as [|x l IH]; cbn; [reflexivity|]. rewrite IH. reflexivity. Qed.
Lemma is_bytes_app : forall a b, is_bytes (a ++ b) <-> is_bytes a /\ is_bytes b.
Proof. intros. unfold is_bytes. apply Forall_app. Qed.
Lemma is_bytes_rev : forall l, is_bytes l -> is_bytes (rev l).
Proof. intros l H. apply Forall_rev. exact H. Qed.
Lemma rep_bytes : forall be n v e, represents be n v e -> is_bytes e.
Proof. intros be n v e (_ & H & _). destruct be; auto. rewrite <- (rev_involutive e). apply is_bytes_rev. auto. Qed.
Lemma rep_len : forall be n v e, represents be n v e -> length e = n.
Proof. intros be n v e (H & _). auto. Qed.
Lemma of_mem_rep : forall host be n v e, represents be n v e -> of_mem host (if xorb be host then rev e else e) = v.
Proof.
  intros host be n v e (_ & _ & H). unfold of_mem. destruct be, host; cbn [xorb]; rewrite ?rev_involutive, ?le_val_fold; auto.
Qed.
Lemma rep_of_mem : forall host be e, is_bytes e -> represents be (length e) (of_mem host (if xorb be host then rev e else e)) e.
Proof.
  intros host be e B. split; auto. split; [destruct be; auto; apply is_bytes_rev; auto|].
  unfold of_mem. destruct be, host; cbn [xorb]; rewrite ?rev_involutive, ?le_val_fold; auto.
Qed.
Lemma u_dec : forall host n i be v e l, represents be n v e -> from_wire_u host n i (inbuf (e ++ l) be) = (v, inbuf l be).
Proof.
  intros host n i be v e l R. unfold from_wire_u. cbn [inbuf rbe]. change (RB (e ++ l) be false) with (inbuf (e ++ l) be).
  rewrite from_wire_mem_in by (eapply rep_len; eauto). rewrite (of_mem_rep host be n v e R). reflexivity.
Qed.
Lemma u_inv : forall host n i be l, is_bytes l ->
  (exists v e l', l = e ++ l' /\ represents be n v e /\ from_wire_u host n i (inbuf l be) = (v, inbuf l' be)) \/
  ((length l < n)%nat /\ from_wire_u host n i (inbuf l be) = (i, RB l be true)).
Proof.
  intros host n i be l B. destruct (Nat.le_gt_cases n (length l)) as [L|L].
  - left. set (e := firstn n l). assert (Le : length e = n) by (unfold e; rewrite firstn_length; lia).
    assert (Be : is_bytes e) by (rewrite <- (firstn_skipn n l) in B; apply is_bytes_app in B; apply B).
    pose proof (rep_of_mem host be e Be) as R. rewrite Le in R. eexists _, e, (skipn n l). split; [symmetry; apply firstn_skipn|]. split; [exact R|].
    rewrite <- (firstn_skipn n l) at 1. apply u_dec. exact R.
  - right. split; auto. unfold from_wire_u, from_wire_mem, rensure. cbn [inbuf rerr rd negb andb]. replace (Z.of_nat n <=? zlen l) with false by (unfold zlen; lia). reflexivity.
Qed.
Lemma u_err : forall host n i b, rerr b = true -> from_wire_u host n i b = (i, b).
Proof. intros host n i [l be er] E. cbn in E. subst. reflexivity. Qed.
Lemma size_dec : forall host i a be n e l, fmt_size be n e -> from_wire_size host i a (inbuf (e ++ l) be) = (n, inbuf l be).
Proof.
  intros host i a be n e l F. destruct F as [n R|n e R]; cbn [app]; unfold from_wire_size; rewrite rensure1, radvance1; cbn [negb inbuf rd hd].
  - replace (n <? 254) with true by lia. reflexivity.
  - change (254 <? 254) with false. change (254 =? 254) with true. cbv iota. apply u_dec. auto.
Qed.
Lemma size_inv : forall host i be l, is_bytes l ->
  (exists n e l', l = e ++ l' /\ fmt_size be n e /\ from_wire_size host i false (inbuf l be) = (n, inbuf l' be)) \/
  (exists n b, from_wire_size host i false (inbuf l be) = (n, b) /\ rerr b = true).
Proof.
  intros host i be l B. destruct l as [|x l].
  - right. eexists _, _. split; [reflexivity|]. reflexivity.
  - inversion B; subst. unfold from_wire_size. rewrite rensure1, radvance1. cbn [negb inbuf rd hd]. change (RB l be false) with (inbuf l be). unfold is_byte in H1.
    destruct (x <? 254) eqn:E; [left; exists x, [x], l; split; auto; split; auto; apply size_short; lia|].
    destruct (x =? 254) eqn:E2.
    + destruct (u_inv host 4 0 be l H2) as [(v & e & l' & -> & R & ->)|(L & ->)].
      * left. exists v, (254 :: e), l'. split; [cbn; f_equal; lia|]. split; auto. apply size_long; auto.
      * right. eexists _, _. split; reflexivity.
    + replace ((x =? 255) && false) with false by (destruct (x =? 255); reflexivity). right. eexists _, _. split; reflexivity.
Qed.
Lemma size_err : forall host i a b, rerr b = true -> from_wire_size host i a b = (i, b).
Proof. intros host i a [l be er] E. cbn in E. subst. reflexivity. Qed.
Lemma rep_range : forall be n v e, represents be n v e -> 0 <= v < 2 ^ (8 * Z.of_nat n).
Proof.
  intros be n v e (L & B & ->). rewrite <- le_val_fold. rewrite <- L. replace (length e) with (length (if be then rev e else e)) by (destruct be; rewrite ?rev_length; auto). apply le_val_range. auto.
Qed.
Lemma fmt_size_range : forall be n e, fmt_size be n e -> 0 <= n < 2 ^ 32.
Proof. intros be n e [m H|m e' R]; [lia|]. apply rep_range in R. exact R. Qed.
Lemma str_null_dec : forall host i be l, from_wire_str host i (inbuf (255 :: l) be) = ([], inbuf l be).
Proof.
  intros. unfold from_wire_str, from_wire_size. rewrite rensure1, radvance1. cbn [negb inbuf rd hd]. change (255 <? 254) with false. change (255 =? 254) with false. change ((255 =? 255) && true) with true. cbv iota.
  rewrite Z.eqb_refl. reflexivity.
Qed.
Lemma str_dec : forall host i be s e l, fmt_str be s e -> from_wire_str host i (inbuf (e ++ l) be) = (s, inbuf l be).
Proof.
  intros host i be s e l F. destruct F as [s e F|].
  - unfold from_wire_str. rewrite <- app_assoc, (size_dec host 0 true be (zlen s) e _ F). pose proof (fmt_size_range _ _ _ F) as R.
    unfold size_null. replace (zlen s =? 2 ^ 64 - 1) with false by lia. rewrite rensure_app by lia. cbn [negb]. unfold radvance, inbuf. cbn [rd rbe rerr].
    unfold zlen. rewrite Nat2Z.id, firstn_len_app, skipn_len_app. reflexivity.
  - apply str_null_dec.
Qed.
Lemma str_inv : forall host i be l, is_bytes l ->
  (exists s e l', l = e ++ l' /\ fmt_str be s e /\ from_wire_str host i (inbuf l be) = (s, inbuf l' be)) \/
  (exists s b, from_wire_str host i (inbuf l be) = (s, b) /\ rerr b = true).
Proof.
  intros host i be l B. destruct l as [|x l]; [right; eexists _, _; split; reflexivity|].
  destruct (Z.eqb_spec x 255) as [->|N]; [left; exists [], [255], l; split; auto; split; [constructor|apply str_null_dec]|].
  assert (SZ : forall b, from_wire_size host 0 true (inbuf (x :: l) be) = b -> from_wire_size host 0 false (inbuf (x :: l) be) = b).
  { intros b. unfold from_wire_size. rewrite rensure1, radvance1. cbn [negb inbuf rd hd]. replace (x =? 255) with false by (symmetry; apply Z.eqb_neq; auto). auto. }
  destruct (from_wire_size host 0 true (inbuf (x :: l) be)) as [n b] eqn:E. pose proof (SZ _ eq_refl) as E2.
  unfold from_wire_str. rewrite E.
  destruct (size_inv host 0 be (x :: l) B) as [(n' & e & l' & EQ & F & E3)|(n' & b' & E3 & ER)].
  - rewrite E2 in E3. inversion E3; subst. clear E3. pose proof (fmt_size_range _ _ _ F) as R. unfold size_null. replace (n' =? 2 ^ 64 - 1) with false by lia.
    unfold rensure. cbn [inbuf rerr rd negb andb]. destruct (n' <=? zlen l') eqn:LE; cbn [negb].
    + left. exists (firstn (Z.to_nat n') l'), (e ++ firstn (Z.to_nat n') l'), (skipn (Z.to_nat n') l'). rewrite <- app_assoc, firstn_skipn. split; auto. split; [|reflexivity].
      constructor. replace (zlen (firstn (Z.to_nat n') l')) with n'; auto. unfold zlen in *. rewrite firstn_length. lia.
    + right. eexists _, _. split; reflexivity.
  - rewrite E2 in E3. inversion E3; subst. clear E3. right. destruct (n' =? size_null); [eexists _, _; split; [reflexivity|auto]|].
    unfold rensure. rewrite ER. cbn [negb andb]. eexists _, _. split; reflexivity.
Qed.
Lemma zeros_spec : forall l, zeros l = true <-> Forall (eq 0) l.
Proof. intros l. unfold zeros. rewrite forallb_forall, Forall_forall. split; intros H x X; specialize (H x X); lia. Qed.
Lemma addr_dec : forall i be a e l, fmt_addr a e -> from_wire_addr i (inbuf (e ++ l) be) = (a, inbuf l be).
Proof.
  intros i be a e l F. assert (L : length e = 16%nat) by (destruct F; [rewrite app_length; cbn; lia|auto]).
  assert (F1 : firstn 16 (e ++ l) = e) by (rewrite <- L; apply firstn_len_app).
  assert (F2 : skipn 16 (e ++ l) = l) by (rewrite <- L; apply skipn_len_app).
  unfold from_wire_addr. rewrite rensure_app by (unfold zlen; lia). unfold radvance, inbuf. cbn [negb rd rbe rerr]. change (Z.to_nat 16) with 16%nat. rewrite F1, F2. clear F1 F2.
  destruct F as [q Q|e _ N].
  - cbn. reflexivity.
  - do 16 (destruct e as [|? e]; [discriminate|]). destruct e; [|discriminate]. cbn in N. cbn.
    destruct (_ && _ && _) eqn:X; auto. exfalso. apply N. repeat match goal with H : (_ && _) = true |- _ => apply andb_true_iff in H; destruct H end. repeat match goal with H : (_ =? _) = true |- _ => apply Z.eqb_eq in H end. subst. reflexivity.
Qed.
Lemma addr_inv : forall i be l, (exists a e l', l = e ++ l' /\ fmt_addr a e /\ from_wire_addr i (inbuf l be) = (a, inbuf l' be)) \/
  ((length l < 16)%nat /\ from_wire_addr i (inbuf l be) = (i, RB l be true)).
Proof.
  intros i be l. destruct (Nat.le_gt_cases 16 (length l)) as [L|L].
  - left. set (e := firstn 16 l). assert (Le : length e = 16%nat) by (unfold e; rewrite firstn_length; lia).
    destruct (list_eq_dec Z.eq_dec (firstn 12 e) v4_prefix) as [P|P].
    + exists (SA_in (skipn 12 e)), e, (skipn 16 l). split; [symmetry; apply firstn_skipn|]. assert (F : fmt_addr (SA_in (skipn 12 e)) e).
      { rewrite <- (firstn_skipn 12 e) at 2. rewrite P. constructor. rewrite skipn_length. lia. }
      split; auto. rewrite <- (firstn_skipn 16 l) at 1. apply addr_dec. auto.
    + exists (SA_in6 e), e, (skipn 16 l). split; [symmetry; apply firstn_skipn|]. assert (F : fmt_addr (SA_in6 e) e) by (constructor; auto).
      split; auto. rewrite <- (firstn_skipn 16 l) at 1. apply addr_dec. auto.
  - right. split; auto. unfold from_wire_addr, rensure. cbn [inbuf rerr rd negb andb]. replace (16 <=? zlen l) with false by (unfold zlen; lia). reflexivity.
Qed.
Lemma addr_err : forall i b, rerr b = true -> from_wire_addr i b = (i, b).
Proof. intros i [l be er] E. cbn in E. subst. reflexivity. Qed.
Lemma skip_dec : forall n e l be, zlen e = n -> rskip n (inbuf (e ++ l) be) = inbuf l be.
Proof.
  intros n e l be L. unfold rskip. cbn [inbuf rd]. rewrite zlen_app. pose proof (zlen_nonneg l). replace (n <=? zlen e + zlen l) with true by lia.
  unfold radvance. cbn [rd rbe rerr inbuf]. subst n. unfold zlen. rewrite Nat2Z.id, skipn_len_app. reflexivity.
Qed.
Lemma skip_inv : forall n l be, 0 <= n ->
  (exists e l', l = e ++ l' /\ zlen e = n /\ rskip n (inbuf l be) = inbuf l' be) \/ (zlen l < n /\ rskip n (inbuf l be) = RB [] be true).
Proof.
  intros n l be N. destruct (Z.le_gt_cases n (zlen l)) as [L|L].
  - left. exists (firstn (Z.to_nat n) l), (skipn (Z.to_nat n) l). split; [symmetry; apply firstn_skipn|].
    assert (X : zlen (firstn (Z.to_nat n) l) = n) by (unfold zlen in *; rewrite firstn_length; lia). split; auto.
    rewrite <- (firstn_skipn (Z.to_nat n) l) at 1. apply skip_dec. auto.
  - right. split; auto. unfold rskip. cbn [inbuf rd rbe]. replace (n <=? zlen l) with false by lia. reflexivity.
Qed.
Lemma skip_err : forall n b, rerr b = true -> rerr (rskip n b) = true.
Proof. intros n b E. unfold rskip, radvance. destruct (n <=? zlen (rd b)); cbn; auto. Qed.

(** ** The cursor *)
(** [pre] has been read, [l] has not, [junk] follows the datagram *)
Definition C (pre l junk : list Z) (be : bool) : cur := Cur (pre ++ l ++ junk) (length pre + length l) (inbuf l be).
Lemma pos_C : forall pre l junk be, pos (C pre l junk be) = length pre.
Proof. intros. unfold pos, C. cbn [fin buf inbuf rd]. lia. Qed.
Lemma good_C : forall pre l junk be, good (C pre l junk be) = true.
Proof. reflexivity. Qed.
Lemma C_app : forall pre e l junk be, Cur (pre ++ (e ++ l) ++ junk) (length pre + length (e ++ l)) (inbuf l be) = C (pre ++ e) l junk be.
Proof. intros. unfold C. rewrite <- !app_assoc, !app_length. f_equal. lia. Qed.
Lemma read_C : forall A (f : rbuf -> A * rbuf) v pre e l junk be, f (inbuf (e ++ l) be) = (v, inbuf l be) -> read f (C pre (e ++ l) junk be) = (v, C (pre ++ e) l junk be).
Proof. intros A f v pre e l junk be H. unfold read. cbn [C buf mem fin]. rewrite H, C_app. reflexivity. Qed.
Lemma skip_C : forall n pre e l junk be, zlen e = n -> skip n (C pre (e ++ l) junk be) = C (pre ++ e) l junk be.
Proof. intros. unfold skip. cbn [C buf mem fin]. rewrite skip_dec by auto. apply C_app. Qed.
Lemma upd_length : forall l p v, length (upd p v l) = length l.
Proof. induction l as [|x l IH]; intros [|p] v; cbn; auto. Qed.
Lemma upd_app : forall a b p v, (p < length a)%nat -> upd p v (a ++ b) = upd p v a ++ b.
Proof. induction a as [|x a IH]; intros b [|p] v L; cbn in *; try lia; auto. f_equal. apply IH. lia. Qed.
Lemma upd_at : forall a x b v, upd (length a) v (a ++ x :: b) = a ++ v :: b.
Proof. induction a as [|y a IH]; intros x b v; cbn; auto. f_equal. apply IH. Qed.
Lemma poke_C : forall p v pre l junk be, (p < length pre)%nat -> poke p v (C pre l junk be) = Some (C (upd p v pre) l junk be).
Proof.
  intros p v pre l junk be L. unfold poke, C. cbn [mem fin buf inbuf rd rbe rerr]. rewrite app_length. replace (p <? length pre + length (l ++ junk))%nat with true by lia.
  rewrite upd_app by auto. rewrite upd_length. replace (length pre + length l - length l)%nat with (length pre) by lia.
  rewrite <- (upd_length pre p v). rewrite skipn_len_app, firstn_len_app. reflexivity.
Qed.
Lemma poke_in : forall p v c, (p < length (mem c))%nat -> exists c', poke p v c = Some c' /\ mem c' = upd p v (mem c) /\ rerr (buf c') = rerr (buf c) /\ fin c' = fin c.
Proof. intros p v c L. unfold poke. replace (p <? length (mem c))%nat with true by lia. eexists. split; [reflexivity|]. auto. Qed.
Lemma firstn_C : forall pre l junk be, firstn (fin (C pre l junk be)) (mem (C pre l junk be)) = pre ++ l.
Proof. intros. unfold C. cbn [fin mem]. rewrite app_assoc, <- app_length. apply firstn_len_app. Qed.
Lemma read_err_u : forall host n i c, rerr (buf c) = true -> read (from_wire_u host n i) c = (i, c).
Proof. intros host n i [m f b] E. unfold read. cbn [buf] in *. rewrite u_err by auto. reflexivity. Qed.
Lemma read_err_size : forall host i a c, rerr (buf c) = true -> read (from_wire_size host i a) c = (i, c).
Proof. intros host n i [m f b] E. unfold read. cbn [buf] in *. rewrite size_err by auto. reflexivity. Qed.
Lemma read_err_addr : forall i c, rerr (buf c) = true -> read (from_wire_addr i) c = (i, c).
Proof. intros i [m f b] E. unfold read. cbn [buf] in *. rewrite addr_err by auto. reflexivity. Qed.
Lemma good_err : forall c, rerr (buf c) = true -> good c = false.
Proof. intros c E. unfold good. rewrite E. reflexivity. Qed.
Lemma skip_err_c : forall n c, rerr (buf c) = true -> rerr (buf (skip n c)) = true.
Proof. intros n c E. apply skip_err. exact E. Qed.

(** reading at a cursor: either an item of the format, or a fault which leaves memory alone *)
Lemma read_u : forall host n i pre l junk be, is_bytes l ->
  (exists v e l', l = e ++ l' /\ represents be n v e /\ read (from_wire_u host n i) (C pre l junk be) = (v, C (pre ++ e) l' junk be)) \/
  (exists c, read (from_wire_u host n i) (C pre l junk be) = (i, c) /\ rerr (buf c) = true /\ mem c = pre ++ l ++ junk).
Proof.
  intros host n i pre l junk be B. destruct (u_inv host n i be l B) as [(v & e & l' & -> & R & E)|(L & E)].
  - left. exists v, e, l'. split; auto. split; auto. apply read_C. auto.
  - right. unfold read. cbn [C buf mem fin]. rewrite E. eexists. split; [reflexivity|]. auto.
Qed.
Lemma read_size : forall host i pre l junk be, is_bytes l ->
  (exists v e l', l = e ++ l' /\ fmt_size be v e /\ read (from_wire_size host i false) (C pre l junk be) = (v, C (pre ++ e) l' junk be)) \/
  (exists v c, read (from_wire_size host i false) (C pre l junk be) = (v, c) /\ rerr (buf c) = true /\ mem c = pre ++ l ++ junk).
Proof.
  intros host i pre l junk be B. destruct (size_inv host i be l B) as [(v & e & l' & -> & R & E)|(v & b & E & ER)].
  - left. exists v, e, l'. split; auto. split; auto. apply read_C. auto.
  - right. unfold read. cbn [C buf mem fin]. rewrite E. eexists _, _. split; [reflexivity|]. auto.
Qed.
Lemma read_str : forall host i pre l junk be, is_bytes l ->
  (exists v e l', l = e ++ l' /\ fmt_str be v e /\ read (from_wire_str host i) (C pre l junk be) = (v, C (pre ++ e) l' junk be)) \/
  (exists v c, read (from_wire_str host i) (C pre l junk be) = (v, c) /\ rerr (buf c) = true /\ mem c = pre ++ l ++ junk).
Proof.
  intros host i pre l junk be B. destruct (str_inv host i be l B) as [(v & e & l' & -> & R & E)|(v & b & E & ER)].
  - left. exists v, e, l'. split; auto. split; auto. apply read_C. auto.
  - right. unfold read. cbn [C buf mem fin]. rewrite E. eexists _, _. split; [reflexivity|]. auto.
Qed.
Lemma read_addr : forall i pre l junk be,
  (exists v e l', l = e ++ l' /\ fmt_addr v e /\ read (from_wire_addr i) (C pre l junk be) = (v, C (pre ++ e) l' junk be)) \/
  (exists c, read (from_wire_addr i) (C pre l junk be) = (i, c) /\ rerr (buf c) = true /\ mem c = pre ++ l ++ junk).
Proof.
  intros i pre l junk be. destruct (addr_inv i be l) as [(v & e & l' & -> & R & E)|(L & E)].
  - left. exists v, e, l'. split; auto. split; auto. apply read_C. auto.
  - right. unfold read. cbn [C buf mem fin]. rewrite E. eexists. split; [reflexivity|]. auto.
Qed.
Lemma do_skip : forall n pre l junk be, 0 <= n ->
  (exists e l', l = e ++ l' /\ zlen e = n /\ skip n (C pre l junk be) = C (pre ++ e) l' junk be) \/ (rerr (buf (skip n (C pre l junk be))) = true).
Proof.
  intros n pre l junk be N. destruct (skip_inv n l be N) as [(e & l' & -> & Z & E)|(Z & E)].
  - left. exists e, l'. split; auto. split; auto. apply skip_C. auto.
  - right. unfold skip. cbn [C buf]. rewrite E. reflexivity.
Qed.

(** ** Protocols *)
Definition others (l : list str) : list str := filter (fun p => negb (str_eqb p t_tcp) && negb (is_nil p)) l.
Definition has_tcp (l : list str) : bool := existsb (fun p => str_eqb p t_tcp) l.
Lemma protos_err : forall host n tcp other c, rerr (buf c) = true -> protos host n tcp other c = (tcp, other, c).
Proof. intros host [|n] tcp other c E; cbn [protos]; auto. rewrite (good_err c E). reflexivity. Qed.
Lemma protos_dec : forall host be ps e, fmt_strs be ps e -> forall tcp other pre l junk,
  protos host (length ps) tcp other (C pre (e ++ l) junk be) = (tcp || has_tcp ps, other ++ others ps, C (pre ++ e) l junk be).
Proof.
  intros host be ps e F. induction F as [|s ps e e' S F IH]; intros tcp other pre l junk; cbn [length protos].
  - cbn [app has_tcp existsb others filter]. rewrite orb_false_r, !app_nil_r. reflexivity.
  - rewrite good_C. rewrite <- app_assoc, (read_C _ _ s) by (apply str_dec; auto). cbn [has_tcp existsb others filter].
    destruct (str_eqb s t_tcp) eqn:T.
    + rewrite IH. rewrite <- app_assoc. cbn [negb andb orb]. rewrite orb_true_r. reflexivity.
    + rewrite IH. rewrite <- !app_assoc. cbn [negb andb orb]. destruct (is_nil s); cbn [negb]; [reflexivity|]. rewrite <- app_assoc. reflexivity.
Qed.
Lemma protos_inv : forall host n tcp other pre l junk be, is_bytes l ->
  (exists ps e l', length ps = n /\ l = e ++ l' /\ fmt_strs be ps e) \/ (exists t o c, protos host n tcp other (C pre l junk be) = (t, o, c) /\ rerr (buf c) = true).
Proof.
  intros host n. induction n as [|n IH]; intros tcp other pre l junk be B.
  - left. exists [], [], l. split; auto. split; auto. constructor.
  - cbn [protos]. rewrite good_C. destruct (read_str host [] pre l junk be B) as [(s & e & l' & -> & F & ->)|(s & c & -> & E & _)].
    + apply is_bytes_app in B. destruct B as (_ & B).
      assert (G : forall t o, (exists ps e0 l'0, length ps = S n /\ e ++ l' = e0 ++ l'0 /\ fmt_strs be ps e0) \/
         (exists t' o' c, protos host n t o (C (pre ++ e) l' junk be) = (t', o', c) /\ rerr (buf c) = true)).
      { intros t o. destruct (IH t o (pre ++ e) l' junk be B) as [(ps & e' & l'' & L & -> & F')|X]; [left|right; exact X].
        exists (s :: ps), (e ++ e'), l''. split; [cbn; auto|]. split; [apply app_assoc|]. constructor; auto. }
      destruct (str_eqb s t_tcp); apply G.
    + right. destruct (str_eqb s t_tcp); rewrite protos_err by auto; eexists _, _, _; split; try reflexivity; auto.
Qed.

(** ** Names *)
(** each name found so far is in [pre], ended by its end or by a NUL *)
Definition held (pre : list Z) (a : nat * Z) (x : str * Z) : Prop :=
  snd a = snd x /\ exists tl, skipn (fst a) pre = fst x ++ tl /\ (fst a <= length pre)%nat /\ (tl = [] \/ exists t, tl = 0 :: t).
Lemma held_more : forall pre e a x, held pre a x -> held (pre ++ 0 :: e) a x.
Proof.
  intros pre e [p id] [s id'] (E & tl & S & L & T). split; auto. cbn [fst snd] in *. exists (tl ++ 0 :: e).
  rewrite skipn_app. replace (p - length pre)%nat with O by lia. cbn [skipn]. rewrite S, <- app_assoc. split; auto. split; [rewrite app_length; lia|].
  right. destruct T as [->|(t & ->)]; eexists; reflexivity.
Qed.
Lemma names_dec : forall host tcp be ns e, fmt_names be ns e -> forall acc seen pre l junk, Forall2 (held pre) acc seen ->
  exists acc' pre', names host tcp (length ns) acc (C pre (e ++ l) junk be) = Some (acc', C pre' l junk be) /\
    Forall2 (held pre') acc' (seen ++ if tcp then ns else []).
Proof.
  intros host tcp be ns e F. induction F as [|s id ns e1 e2 e' R S F IH]; intros acc seen pre l junk H; cbn [length names].
  - cbn [app]. exists acc, pre. split; auto. replace (if tcp then [] else []) with (@nil (str * Z)) by (destruct tcp; auto). rewrite app_nil_r. auto.
  - rewrite good_C, pos_C. pose proof (rep_len _ _ _ _ R) as L1. rewrite <- !app_assoc. rewrite (read_C _ _ id) by (apply u_dec; auto). rewrite (read_C _ _ (zlen s)) by (apply size_dec; auto).
    rewrite poke_C by (rewrite !app_length; lia).
    destruct e1 as [|x e1]; [discriminate|]. rewrite <- app_assoc. cbn [app]. rewrite upd_at.
    set (pre2 := pre ++ 0 :: e1 ++ e2). rewrite good_C, pos_C. cbn [C buf inbuf rd]. change (Cur (pre2 ++ (s ++ e' ++ l) ++ junk) (length pre2 + length (s ++ e' ++ l)) (inbuf (s ++ e' ++ l) be)) with (C pre2 (s ++ e' ++ l) junk be).
    rewrite zlen_app. pose proof (zlen_nonneg (e' ++ l)). replace (zlen s <=? zlen s + zlen (e' ++ l)) with true by lia. rewrite !andb_true_r.
    rewrite skip_C by reflexivity.
    destruct (IH (if tcp then acc ++ [(length pre2, id)] else acc) (seen ++ if tcp then [(s, id)] else []) (pre2 ++ s) l junk) as (acc' & pre' & E & H').
    + assert (HA : Forall2 (held (pre2 ++ s)) acc seen).
      { unfold pre2. rewrite <- app_assoc. cbn [app]. clear -H. induction H; constructor; auto. apply held_more. auto. }
      destruct tcp; [|rewrite app_nil_r; auto]. apply Forall2_app; auto. constructor; [|constructor]. split; [reflexivity|]. cbn [fst snd]. exists []. rewrite skipn_len_app, app_nil_r. split; auto. split; [rewrite app_length; lia|auto].
    + exists acc', pre'. split; [exact E|]. rewrite <- app_assoc in H'. destruct tcp; exact H'.
Qed.
Lemma names_err : forall host tcp n acc c, rerr (buf c) = true -> names host tcp n acc c = Some (acc, c).
Proof. intros host tcp [|n] acc c E; cbn [names]; auto. rewrite (good_err c E). reflexivity. Qed.
Lemma names_inv : forall host tcp n acc pre l junk be, is_bytes l -> junk <> [] ->
  (exists ns e l', length ns = n /\ l = e ++ l' /\ fmt_names be ns e) \/
  (exists a c, names host tcp n acc (C pre l junk be) = Some (a, c) /\ rerr (buf c) = true).
Proof.
  intros host tcp n. induction n as [|n IH]; intros acc pre l junk be B J.
  - left. exists [], [], l. split; auto. split; auto. constructor.
  - cbn [names]. rewrite good_C, pos_C.
    assert (LM : (length pre < length (pre ++ l ++ junk))%nat) by (rewrite !app_length; destruct junk; [congruence|cbn; lia]).
    assert (FAIL : forall id len c2, rerr (buf c2) = true -> mem c2 = pre ++ l ++ junk ->
      exists a c, match poke (length pre) 0 c2 with
        | Some c3 => names host tcp n (if tcp && (len <=? zlen (rd (buf c3))) && good c3 then acc ++ [(pos c3, id)] else acc) (skip len c3)
        | None => None end = Some (a, c) /\ rerr (buf c) = true).
    { intros id len c2 E M. destruct (poke_in (length pre) 0 c2) as (c3 & -> & _ & E3 & _); [rewrite M; auto|]. rewrite E in E3.
      rewrite names_err by (apply skip_err_c; auto). eexists _, _. split; [reflexivity|]. apply skip_err_c. auto. }
    destruct (read_u host 4 0xffffffff pre l junk be B) as [(id & e1 & l1 & -> & R & ->)|(c & -> & E & M)].
    + apply is_bytes_app in B. destruct B as (B1 & B).
      destruct (read_size host 0 (pre ++ e1) l1 junk be B) as [(len & e2 & l2 & -> & S & ->)|(len & c & -> & E & M)].
      * apply is_bytes_app in B. destruct B as (B2 & B). rewrite poke_C by (rewrite !app_length; rewrite (rep_len _ _ _ _ R); lia).
        set (pre2 := upd (length pre) 0 ((pre ++ e1) ++ e2)). set (acc' := if _ : bool then _ else _).
        pose proof (fmt_size_range _ _ _ S) as LR.
        destruct (do_skip len pre2 l2 junk be) as [(s & l3 & -> & Z & ->)|E]; [lia| |].
        -- apply is_bytes_app in B. destruct B as (_ & B). destruct (IH acc' (pre2 ++ s) l3 junk be B J) as [(ns & e' & l4 & L & -> & F)|X]; [left|right; exact X].
           exists ((s, id) :: ns), (e1 ++ e2 ++ s ++ e'), l4. split; [cbn; auto|]. split; [rewrite <- !app_assoc; reflexivity|]. constructor; auto. rewrite Z. auto.
        -- right. rewrite names_err by auto. eexists _, _. split; [reflexivity|auto].
      * right. apply FAIL; auto. rewrite M, <- !app_assoc. reflexivity.
    + right. destruct (read (from_wire_size host 0 false) c) as [len c2] eqn:E2. rewrite read_err_size in E2 by auto. inversion E2; subst. apply FAIL; auto.
Qed.
Lemma cstring_c_str : forall s t, cstring (s ++ 0 :: t) = Some (c_str s).
Proof. induction s as [|x s IH]; intros t; cbn; auto. destruct (x =? 0); auto. rewrite IH. reflexivity. Qed.
Lemma strings_held : forall pre acc ns t, Forall2 (held pre) acc ns -> strings (pre ++ 0 :: t) acc = Some (map (fun x => (c_str (fst x), snd x)) ns).
Proof.
  intros pre acc ns t H. induction H as [|[p id] [s id'] acc ns (E & tl & S & L & T) H IH]; cbn [strings map]; auto. cbn [fst snd] in *. subst id'.
  rewrite IH. rewrite skipn_app. replace (p - length pre)%nat with O by lia. cbn [skipn]. rewrite S, <- app_assoc.
  destruct T as [->|(t' & ->)]; cbn [app]; rewrite cstring_c_str; reflexivity.
Qed.

(** ** Bytes *)
Lemma byte_all : forall P : Z -> bool, forallb P (map Z.of_nat (seq 0 256)) = true -> forall x, 0 <= x < 256 -> P x = true.
Proof.
  intros P H x X. rewrite forallb_forall in H. apply H. apply in_map_iff. exists (Z.to_nat x). split; [lia|]. apply in_seq. lia.
Qed.
Lemma bit7 : forall x, 0 <= x < 256 -> negb (Z.land x 128 =? 0) = Z.testbit x 7.
Proof. intros x X. apply eqb_prop. revert x X. apply byte_all. vm_compute. reflexivity. Qed.
Lemma bit0 : forall x, 0 <= x < 256 -> negb (Z.land x 1 =? 0) = Z.testbit x 0.
Proof. intros x X. apply eqb_prop. revert x X. apply byte_all. vm_compute. reflexivity. Qed.
Lemma no_flags : forall x, 0 <= x < 256 -> negb (Z.land x (Z.lor flag_Control flag_SegMask) =? 0) = false <-> Z.land x 1 = 0 /\ Z.land x 48 = 0.
Proof.
  intros x X. assert (E : Bool.eqb (negb (Z.land x (Z.lor flag_Control flag_SegMask) =? 0)) (negb ((Z.land x 1 =? 0) && (Z.land x 48 =? 0))) = true).
  { revert x X. apply byte_all. vm_compute. reflexivity. }
  apply eqb_prop in E. rewrite E. rewrite negb_false_iff, andb_true_iff, !Z.eqb_eq. tauto.
Qed.
Lemma rep1 : forall be v e, represents be 1 v e -> e = [v].
Proof. intros be v e (L & _ & ->). destruct e as [|x [|y e]]; try discriminate. destruct be; cbn; f_equal; lia. Qed.
Lemma rep1_is : forall be v, 0 <= v < 256 -> represents be 1 v [v].
Proof. intros be v R. split; auto. split; [destruct be; cbn; repeat constructor; unfold is_byte; lia|]. destruct be; cbn; lia. Qed.
Lemma fmt_addr_spec : forall a e, fmt_addr a e -> is_unspec a = false.
Proof. intros a e []; reflexivity. Qed.
Lemma fmt_addr_len : forall a e, fmt_addr a e -> length e = 16%nat.
Proof. intros a e []; auto. rewrite app_length. cbn. lia. Qed.

(** ** Searches *)
(** the rest of a search, from the protocols on *)
Definition rest_search (host : bool) (g : coll) (h : header) (id fl : Z) (srv : sockaddr) (port : Z) (c5 : cur) : coll * outcome :=
  let '(np, c6) := read (from_wire_size host 0 false) c5 in
  let '(tcp, other, c7) := protos host (Z.to_nat np) (c_tcp g) [] c6 in
  let '(nchan, c8) := read (from_wire_u host 2 0) c7 in
  let g2 := {| c_server := srv; c_bserver := c_bserver g; c_bproto := c_bproto g; c_guid := c_guid g; c_id := id; c_tcp := tcp |} in
  match names host tcp (Z.to_nat nchan) [] c8 with
  | None => (g2, UB)
  | Some (l, c9) =>
    if good c9 then
      match poke (pos c9) 0 c9 with
      | None => (g2, UB)
      | Some c10 =>
        match strings (mem c10) l with
        | None => (g2, UB)
        | Some ns =>
          (g2, Search_ {| s_version := h_version h; s_id := id; s_mustreply := negb (Z.land fl search_mustreply =? 0); s_server := srv; s_port := port;
                          s_other := other; s_names := ns |})
        end
      end
    else (g2, Ignore)
  end.
(** everything after the addresses *)
Definition after_head (host : bool) (g : coll) (src dest : sockaddr) (o : origin) (h : header) (id fl : Z) (p_flags p_addr : nat) (srv0 : sockaddr) (port : Z) (c5 : cur) : coll * outcome :=
  let srv := if is_any srv0 then src else srv0 in
  let g1 := {| c_server := srv; c_bserver := c_bserver g; c_bproto := c_bproto g; c_guid := c_guid g; c_id := id; c_tcp := c_tcp g |} in
  if is_any srv0 && match o with OriginTag => true | _ => false end then (g1, Ignore)
  else if is_unspec srv then (g1, Throw)
  else if good c5 && negb (Z.land fl search_unicast =? 0) && is_in dest && negb (is_lo_mcast dest) then
    match o with
    | OriginTag => (g1, Abort)
    | _ =>
      match poke p_flags (Z.land fl (255 - search_unicast)) c5 with
      | None => (g1, UB)
      | Some c6 =>
        match pokes p_addr (wd (to_wire_addr [] srv (WB [] (Some 16) (rbe (buf c6)) false))) c6 with
        | None => (g1, UB)
        | Some c7 =>
          let tag := to_wire_addr [] dest (to_wire_header host (Header cmd_origin_tag 0 0 16) (WB [] (Some 24) true false)) in
          (g1, Forward (wd tag ++ firstn (fin c7) (mem c7)))
        end
      end
    end
  else rest_search host g h id fl srv port c5.
Lemma do_search_eq : forall host g src dest o h c0, do_search host g src dest o h c0 =
  (let '(id, c1) := read (from_wire_u host 4 (c_id g)) c0 in
   let '(fl, c2) := read (from_wire_u host 1 0) c1 in
   let c3 := skip 3 c2 in
   let '(srv0, c4) := read (from_wire_addr (c_server g)) c3 in
   let '(port, c5) := read (from_wire_u host 2 0) c4 in
   after_head host g src dest o h id fl (pos c1) (pos c3) srv0 port c5).
Proof. reflexivity. Qed.

(** the bytes up to and including the port *)
Definition search_head (be : bool) (id fl : Z) (a : sockaddr) (port : Z) (e_id resv e_addr e_port : list Z) : Prop :=
  represents be 4 id e_id /\ 0 <= fl < 256 /\ length resv = 3%nat /\ fmt_addr a e_addr /\ represents be 2 port e_port.
Lemma head_dec : forall host g src dest o h pre junk be id fl a port e_id resv e_addr e_port rest, search_head be id fl a port e_id resv e_addr e_port ->
  do_search host g src dest o h (C pre (e_id ++ [fl] ++ resv ++ e_addr ++ e_port ++ rest) junk be) =
  after_head host g src dest o h id fl (length (pre ++ e_id)) (length (pre ++ e_id ++ [fl] ++ resv)) a port (C (pre ++ e_id ++ [fl] ++ resv ++ e_addr ++ e_port) rest junk be).
Proof.
  intros host g src dest o h pre junk be id fl a port e_id resv e_addr e_port rest (R1 & R2 & R3 & R4 & R5). rewrite do_search_eq.
  rewrite (read_C _ _ id) by (apply u_dec; auto). rewrite (read_C _ _ fl) by (apply u_dec; apply rep1_is; auto).
  cbv zeta. rewrite skip_C by (unfold zlen; lia). rewrite (read_C _ _ a) by (apply addr_dec; auto). rewrite (read_C _ _ port) by (apply u_dec; auto).
  cbv zeta. rewrite !pos_C. rewrite <- !app_assoc. reflexivity.
Qed.
Lemma head_inv : forall host g src dest o h pre junk be body, is_bytes body -> is_unspec src = false ->
  (exists id fl a port e_id resv e_addr e_port rest, search_head be id fl a port e_id resv e_addr e_port /\ body = e_id ++ [fl] ++ resv ++ e_addr ++ e_port ++ rest) \/
  snd (do_search host g src dest o h (C pre body junk be)) = Ignore \/ snd (do_search host g src dest o h (C pre body junk be)) = Throw.
Proof.
  intros host g src dest o h pre junk be body B US. rewrite do_search_eq.
  assert (END : forall id fl p1 p2 srv0 port c5, rerr (buf c5) = true ->
     snd (after_head host g src dest o h id fl p1 p2 srv0 port c5) = Ignore \/ snd (after_head host g src dest o h id fl p1 p2 srv0 port c5) = Throw).
  { intros id fl p1 p2 srv0 port c5 E. unfold after_head. cbv zeta. destruct (is_any srv0 && match o with OriginTag => true | _ => false end); [left; reflexivity|]. destruct (is_unspec (if is_any srv0 then src else srv0)); [right; reflexivity|].
    rewrite (good_err c5 E). cbn [andb]. unfold rest_search. rewrite read_err_size by auto. rewrite protos_err by auto. rewrite read_err_u by auto. cbn [Z.to_nat names]. rewrite (good_err c5 E). left. reflexivity. }
  destruct (read_u host 4 (c_id g) pre body junk be B) as [(id & e_id & l1 & -> & R1 & ->)|(c & -> & E & _)].
  2: { right. rewrite read_err_u by auto. cbv zeta. rewrite read_err_addr by (apply skip_err_c; auto). rewrite read_err_u by (apply skip_err_c; auto). apply END. apply skip_err_c; auto. }
  apply is_bytes_app in B. destruct B as (_ & B).
  destruct (read_u host 1 0 (pre ++ e_id) l1 junk be B) as [(fl & e_fl & l2 & -> & R2 & ->)|(c & -> & E & _)].
  2: { right. cbv zeta. rewrite read_err_addr by (apply skip_err_c; auto). rewrite read_err_u by (apply skip_err_c; auto). apply END. apply skip_err_c; auto. }
  apply is_bytes_app in B. destruct B as (_ & B). cbv zeta.
  destruct (do_skip 3 ((pre ++ e_id) ++ e_fl) l2 junk be) as [(resv & l3 & -> & Z3 & ->)|E]; [lia| |].
  2: { right. rewrite read_err_addr by auto. rewrite read_err_u by auto. apply END. auto. }
  apply is_bytes_app in B. destruct B as (_ & B).
  destruct (read_addr (c_server g) (((pre ++ e_id) ++ e_fl) ++ resv) l3 junk be) as [(a & e_addr & l4 & -> & R4 & ->)|(c & -> & E & _)].
  2: { right. rewrite read_err_u by auto. apply END. auto. }
  apply is_bytes_app in B. destruct B as (_ & B).
  destruct (read_u host 2 0 ((((pre ++ e_id) ++ e_fl) ++ resv) ++ e_addr) l4 junk be B) as [(port & e_port & l5 & -> & R5 & ->)|(c & -> & E & _)].
  2: { right. apply END. auto. }
  left. exists id, fl, a, port, e_id, resv, e_addr, e_port, l5. pose proof (rep_range _ _ _ _ R2) as FR. change (2 ^ (8 * Z.of_nat 1)) with 256 in FR. apply rep1 in R2. subst e_fl. split; [|reflexivity].
  repeat split; auto; try tauto; try lia; try (unfold zlen in Z3; lia); try apply R1; try apply R5.
Qed.
(** the bytes from the protocols on *)
Definition search_rest (be : bool) (ps : list str) (ns : list (str * Z)) (rest : list Z) : Prop :=
  exists e_np e_protos e_n e_names more, rest = e_np ++ e_protos ++ e_n ++ e_names ++ more /\
    fmt_size be (zlen ps) e_np /\ fmt_strs be ps e_protos /\ represents be 2 (zlen ns) e_n /\ fmt_names be ns e_names.
Lemma rest_dec : forall host g h id fl srv port pre rest junk be ps ns, 0 <= fl < 256 -> junk <> [] -> search_rest be ps ns rest ->
  rest_search host g h id fl srv port (C pre rest junk be) =
  ({| c_server := srv; c_bserver := c_bserver g; c_bproto := c_bproto g; c_guid := c_guid g; c_id := id; c_tcp := c_tcp g || has_tcp ps |},
   Search_ {| s_version := h_version h; s_id := id; s_mustreply := Z.testbit fl 0; s_server := srv; s_port := port; s_other := others ps;
              s_names := if c_tcp g || has_tcp ps then map (fun x => (c_str (fst x), snd x)) ns else [] |}).
Proof.
  intros host g h id fl srv port pre rest junk be ps ns FL J (e_np & e_protos & e_n & e_names & more & -> & R1 & R2 & R3 & R4). unfold rest_search.
  rewrite (read_C _ _ (zlen ps)) by (apply size_dec; auto). unfold zlen at 1. rewrite Nat2Z.id. rewrite (protos_dec host be ps e_protos) by auto.
  rewrite (read_C _ _ (zlen ns)) by (apply u_dec; auto). unfold zlen at 1. rewrite Nat2Z.id.
  destruct (names_dec host (c_tcp g || has_tcp ps) be ns e_names R4 [] [] (((pre ++ e_np) ++ e_protos) ++ e_n) more junk) as (acc & pre' & E & H); [constructor|].
  cbv zeta. rewrite E. rewrite good_C, pos_C. destruct (poke_in (length pre') 0 (C pre' more junk be)) as (c & -> & M & _).
  { unfold C. cbn [mem]. rewrite !app_length. destruct junk; [congruence|cbn; lia]. }
  cbn [C mem] in M. rewrite M.
  assert (X : exists y z, more ++ junk = y :: z) by (destruct more; [destruct junk; [congruence|eexists _, _; reflexivity]|eexists _, _; reflexivity]).
  destruct X as (y & z & ->). rewrite upd_at. rewrite (strings_held pre' acc _ z H). unfold search_mustreply. rewrite bit0 by auto. cbn [app].
  destruct (c_tcp g || has_tcp ps); reflexivity.
Qed.
Lemma rest_inv : forall host g h id fl srv port pre rest junk be, is_bytes rest -> junk <> [] ->
  (exists ps ns, search_rest be ps ns rest) \/ snd (rest_search host g h id fl srv port (C pre rest junk be)) = Ignore.
Proof.
  intros host g h id fl srv port pre rest junk be B J. unfold rest_search.
  destruct (read_size host 0 pre rest junk be B) as [(np & e1 & l1 & -> & R1 & ->)|(np & c & -> & E & _)].
  2: { right. rewrite protos_err by auto. rewrite read_err_u by auto. cbn [Z.to_nat names]. cbv zeta. rewrite (good_err c E). reflexivity. }
  apply is_bytes_app in B. destruct B as (_ & B). pose proof (fmt_size_range _ _ _ R1) as NR.
  destruct (protos_inv host (Z.to_nat np) (c_tcp g) [] (pre ++ e1) l1 junk be B) as [(ps & e2 & l2 & L & -> & R2)|(t & o & c & -> & E)].
  2: { right. rewrite read_err_u by auto. cbn [Z.to_nat names]. cbv zeta. rewrite (good_err c E). reflexivity. }
  apply is_bytes_app in B. destruct B as (_ & B). rewrite <- L. rewrite (protos_dec host be ps e2) by auto.
  destruct (read_u host 2 0 ((pre ++ e1) ++ e2) l2 junk be B) as [(n & e3 & l3 & -> & R3 & ->)|(c & -> & E & _)].
  2: { right. cbn [Z.to_nat names]. cbv zeta. rewrite (good_err c E). reflexivity. }
  apply is_bytes_app in B. destruct B as (_ & B). pose proof (rep_range _ _ _ _ R3) as NR3.
  destruct (names_inv host (c_tcp g || has_tcp ps) (Z.to_nat n) [] (((pre ++ e1) ++ e2) ++ e3) l3 junk be B J) as [(ns & e4 & l4 & L4 & -> & R4)|(a & c & E1 & E)].
  - left. exists ps, ns. exists e1, e2, e3, e4, l4. split; auto. split; [replace (zlen ps) with np by (unfold zlen; lia); auto|]. split; auto. split; auto. replace (zlen ns) with n by (unfold zlen; lia). auto.
  - right. cbv zeta. rewrite E1. rewrite (good_err c E). reflexivity.
Qed.
Definition is_tag (o : origin) : bool := match o with OriginTag => true | _ => false end.
Lemma after_plain : forall host g src dest o h id fl p1 p2 a e_addr port pre rest junk be, is_unspec src = false -> fmt_addr a e_addr -> 0 <= fl < 256 ->
  is_any a && is_tag o = false -> Z.testbit fl 7 && is_in dest && negb (is_lo_mcast dest) = false ->
  after_head host g src dest o h id fl p1 p2 a port (C pre rest junk be) =
  rest_search host g h id fl (if is_any a then src else a) port (C pre rest junk be).
Proof.
  intros host g src dest o h id fl p1 p2 a e_addr port pre rest junk be US FA FR T F. unfold after_head. cbv zeta. unfold is_tag in T. rewrite T.
  replace (is_unspec (if is_any a then src else a)) with false by (destruct (is_any a); auto; symmetry; eapply fmt_addr_spec; eauto).
  unfold search_unicast. rewrite bit7 by auto. cbn [good C buf inbuf rerr negb andb]. rewrite F. reflexivity.
Qed.
Lemma after_tag : forall host g src dest o h id fl p1 p2 a port c, is_any a && is_tag o = true ->
  snd (after_head host g src dest o h id fl p1 p2 a port c) = Ignore.
Proof. intros. unfold after_head. cbv zeta. unfold is_tag in H. rewrite H. reflexivity. Qed.
Lemma pokes_at : forall l old A B rest junk be, length old = length l ->
  pokes (length A) l (C (A ++ old ++ B) rest junk be) = Some (C (A ++ l ++ B) rest junk be).
Proof.
  induction l as [|x l IH]; intros [|y old] A B rest junk be L; try discriminate; cbn [pokes app]; auto.
  rewrite poke_C by (rewrite app_length; cbn; lia). rewrite upd_at.
  replace (A ++ x :: old ++ B) with ((A ++ [x]) ++ old ++ B) by (rewrite <- app_assoc; reflexivity).
  replace (S (length A)) with (length (A ++ [x])) by (rewrite app_length; cbn; lia). rewrite IH by (cbn in L; lia). rewrite <- app_assoc. reflexivity.
Qed.
Lemma enc_addr : forall a e w, fmt_addr a e -> wensure 16 w = true -> wd (to_wire_addr [] a w) = wd w ++ e.
Proof. intros a e w F W. unfold to_wire_addr. rewrite W. cbn [negb]. destruct F; reflexivity. Qed.
(** the origin tag as forwardM() writes it *)
Definition tag_bytes (e_dest : list Z) : list Z := [202; 2; 128; 22] ++ [0; 0; 0; 16] ++ e_dest.
Lemma after_forward : forall host g src e_src dest e_dest o h id fl a e_addr port pre e_id resv e_port rest junk be,
  fmt_addr src e_src -> fmt_addr dest e_dest -> fmt_addr a e_addr -> 0 <= fl < 256 ->
  is_any a && is_tag o = false -> Z.testbit fl 7 && is_in dest && negb (is_lo_mcast dest) = true ->
  snd (after_head host g src dest o h id fl (length (pre ++ e_id)) (length (pre ++ e_id ++ [fl] ++ resv)) a port (C (pre ++ e_id ++ [fl] ++ resv ++ e_addr ++ e_port) rest junk be)) =
  if is_tag o then Abort
  else Forward (tag_bytes e_dest ++ pre ++ e_id ++ [Z.land fl 127] ++ resv ++ (if is_any a then e_src else e_addr) ++ e_port ++ rest).
Proof.
  intros host g src e_src dest e_dest o h id fl a e_addr port pre e_id resv e_port rest junk be FS FD FA FR T F. unfold after_head. cbv zeta.
  set (srv := if is_any a then src else a). set (e_srv := if is_any a then e_src else e_addr).
  assert (FV : fmt_addr srv e_srv) by (unfold srv, e_srv; destruct (is_any a); auto).
  change (match o with OriginTag => true | _ => false end) with (is_tag o). rewrite T. rewrite (fmt_addr_spec _ _ FV).
  unfold search_unicast. rewrite bit7 by auto. change (good (C (pre ++ e_id ++ [fl] ++ resv ++ e_addr ++ e_port) rest junk be)) with true. rewrite andb_true_l, F.
  assert (P : poke (length (pre ++ e_id)) (Z.land fl (255 - 128)) (C (pre ++ e_id ++ [fl] ++ resv ++ e_addr ++ e_port) rest junk be) =
              Some (C ((pre ++ e_id ++ [Z.land fl 127] ++ resv) ++ e_addr ++ e_port) rest junk be)).
  { rewrite poke_C by (rewrite !app_length; cbn; lia). rewrite (app_assoc pre e_id). cbn [app]. rewrite upd_at. change (255 - 128) with 127. rewrite <- !app_assoc. reflexivity. }
  assert (X : snd (match poke (length (pre ++ e_id)) (Z.land fl (255 - 128)) (C (pre ++ e_id ++ [fl] ++ resv ++ e_addr ++ e_port) rest junk be) with
      | Some c6 => match pokes (length (pre ++ e_id ++ [fl] ++ resv)) (wd (to_wire_addr [] srv (WB [] (Some 16) (rbe (buf c6)) false))) c6 with
        | Some c7 => ({| c_server := srv; c_bserver := c_bserver g; c_bproto := c_bproto g; c_guid := c_guid g; c_id := id; c_tcp := c_tcp g |},
             Forward (wd (to_wire_addr [] dest (to_wire_header host (Header cmd_origin_tag 0 0 16) (WB [] (Some 24) true false))) ++ firstn (fin c7) (mem c7)))
        | None => ({| c_server := srv; c_bserver := c_bserver g; c_bproto := c_bproto g; c_guid := c_guid g; c_id := id; c_tcp := c_tcp g |}, UB) end
      | None => ({| c_server := srv; c_bserver := c_bserver g; c_bproto := c_bproto g; c_guid := c_guid g; c_id := id; c_tcp := c_tcp g |}, UB) end) =
     Forward (tag_bytes e_dest ++ pre ++ e_id ++ [Z.land fl 127] ++ resv ++ e_srv ++ e_port ++ rest)).
  { rewrite P. rewrite (enc_addr srv e_srv) by (auto; reflexivity). cbn [app wd].
    replace (length (pre ++ e_id ++ fl :: resv)) with (length (pre ++ e_id ++ [Z.land fl 127] ++ resv)) by (rewrite !app_length; reflexivity).
    rewrite pokes_at by (rewrite (fmt_addr_len _ _ FA), (fmt_addr_len _ _ FV); reflexivity). cbn [snd]. f_equal.
    rewrite (enc_addr dest e_dest) by (auto; destruct host; reflexivity).
    replace (wd (to_wire_header host (Header cmd_origin_tag 0 0 16) (WB [] (Some 24) true false))) with [202; 2; 128; 22; 0; 0; 0; 16] by (destruct host; reflexivity).
    unfold tag_bytes. rewrite <- !app_assoc. cbn [app]. do 8 f_equal. f_equal. f_equal.
    rewrite firstn_C. repeat (rewrite <- !app_assoc; cbn [app]). reflexivity. }
  destruct o; cbn [is_tag]; exact X || reflexivity.
Qed.
Definition head_of (be : bool) (f : fields) (body : list Z) : Prop :=
  exists e_id resv e_addr e_port rest, search_head be (f_id f) (f_flags f) (f_addr f) (f_port f) e_id resv e_addr e_port /\
    body = e_id ++ [f_flags f] ++ resv ++ e_addr ++ e_port ++ rest /\ search_rest be (f_protos f) (f_names f) rest.
Lemma body_split : forall be f body, is_bytes body -> (search_body be f body <-> head_of be f body).
Proof.
  intros be f body B. split.
  - intros (e_id & resv & e_addr & e_port & e_np & e_protos & e_n & e_names & more & E & R1 & R2 & R3 & R4 & R5 & R6 & R7 & R8).
    exists e_id, resv, e_addr, e_port, (e_np ++ e_protos ++ e_n ++ e_names ++ more). split; [|split; auto; exists e_np, e_protos, e_n, e_names, more; auto].
    assert (F : 0 <= f_flags f < 256). { rewrite E in B. apply is_bytes_app in B. destruct B as (_ & B). inversion B; subst. exact H1. }
    unfold search_head. auto.
  - intros (e_id & resv & e_addr & e_port & rest & (R1 & _ & R2 & R3 & R4) & E & (e_np & e_protos & e_n & e_names & more & -> & R5 & R6 & R7 & R8)).
    exists e_id, resv, e_addr, e_port, e_np, e_protos, e_n, e_names, more. auto 20.
Qed.
Lemma search_eval : forall host g src e_src dest o h pre body junk be f, is_bytes body -> junk <> [] -> fmt_addr src e_src -> search_body be f body ->
  is_any (f_addr f) && is_tag o = false -> forwarded f dest = false ->
  snd (do_search host g src dest o h (C pre body junk be)) = Search_ (search_of (c_tcp g) src (h_version h) f).
Proof.
  intros host g src e_src dest o h pre body junk be f B J US S T F. apply body_split in S; auto. destruct S as (e_id & resv & e_addr & e_port & rest & H & -> & R).
  rewrite (head_dec _ _ _ _ _ _ _ _ _ _ _ _ _ _ _ _ _ _ H). destruct H as (R1 & R2 & R3 & R4 & R5).
  rewrite (after_plain _ _ _ _ _ _ _ _ _ _ _ e_addr) by (auto; eapply fmt_addr_spec; eauto). rewrite (rest_dec _ _ _ _ _ _ _ _ _ _ _ (f_protos f) (f_names f)) by auto. reflexivity.
Qed.
Definition valid (a : sockaddr) : Prop := match a with SA_in q => length q = 4%nat | _ => True end.
Lemma fmt_valid : forall a e, fmt_addr a e -> valid a.
Proof. intros a e F. destruct F; cbn; auto. Qed.
Lemma search_sound : forall host g src e_src dest o h pre body junk be, is_bytes body -> junk <> [] -> fmt_addr src e_src -> valid dest ->
  match snd (do_search host g src dest o h (C pre body junk be)) with
  | Search_ s => exists f, search_body be f body /\ is_any (f_addr f) && is_tag o = false /\ forwarded f dest = false /\ s = search_of (c_tcp g) src (h_version h) f
  | UB | Beacon_ _ => False
  | Abort => o = OriginTag /\ is_in dest = true /\ is_lo_mcast dest = false
  | Forward l => o <> OriginTag /\ is_in dest = true /\ is_lo_mcast dest = false
  | Throw | Ignore => True
  end.
Proof.
  intros host g src e_src dest o h pre body junk be B J FS VD. assert (US : is_unspec src = false) by (eapply fmt_addr_spec; eauto).
  destruct (head_inv host g src dest o h pre junk be body B US) as [(id & fl & a & port & e_id & resv & e_addr & e_port & rest & H & E)|[E|E]]; try (rewrite E; exact I).
  rewrite E. rewrite (head_dec _ _ _ _ _ _ _ _ _ _ _ _ _ _ _ _ _ _ H). pose proof H as (R1 & R2 & R3 & R4 & R5).
  destruct (is_any a && is_tag o) eqn:T; [rewrite after_tag by auto; exact I|].
  destruct (Z.testbit fl 7 && is_in dest && negb (is_lo_mcast dest)) eqn:F.
  - pose proof F as F0. apply andb_true_iff in F. destruct F as (F & F3). apply andb_true_iff in F. destruct F as (F1 & F2). rewrite negb_true_iff in F3.
    destruct dest as [|q|q]; try discriminate F2.
    rewrite (after_forward _ _ _ _ _ _ _ _ _ _ _ _ _ _ _ _ _ _ _ _ FS (addr_v4 q VD) R4 R2 T F0).
    destruct o; cbn [is_tag]; repeat split; auto; discriminate.
  - rewrite (after_plain _ _ _ _ _ _ _ _ _ _ _ e_addr) by auto.
    assert (BR : is_bytes rest) by (rewrite E in B; repeat (apply is_bytes_app in B; destruct B as (_ & B)); exact B).
    destruct (rest_inv host g h id fl (if is_any a then src else a) port (pre ++ e_id ++ [fl] ++ resv ++ e_addr ++ e_port) rest junk be BR J) as [(ps & ns & R)|X]; [|rewrite X; exact I].
    rewrite (rest_dec _ _ _ _ _ _ _ _ _ _ _ ps ns) by auto. cbn [snd].
    set (f := {| f_id := id; f_flags := fl; f_addr := a; f_port := port; f_protos := ps; f_names := ns |}).
    exists f. split; [apply body_split; [rewrite <- E; auto|]; exists e_id, resv, e_addr, e_port, rest; auto|]. auto.
Qed.
(** ... and what is forwarded *)
Lemma search_forward : forall host g src e_src dest e_dest o h pre body junk be f, is_bytes body -> fmt_addr src e_src -> is_bytes e_src -> fmt_addr dest e_dest -> o <> OriginTag ->
  search_body be f body -> forwarded f dest = true ->
  exists body', snd (do_search host g src dest o h (C pre body junk be)) = Forward (tag_bytes e_dest ++ pre ++ body') /\
    search_body be {| f_id := f_id f; f_flags := Z.land (f_flags f) 127; f_addr := if is_any (f_addr f) then src else f_addr f; f_port := f_port f; f_protos := f_protos f; f_names := f_names f |} body' /\
    length body' = length body /\ is_bytes body'.
Proof.
  intros host g src e_src dest e_dest o h pre body junk be f B FS BS FD NO S F.
  pose proof S as (e_id & resv & e_addr & e_port & e_np & e_protos & e_n & e_names & more & E & R1 & R2 & R3 & R4 & R5 & R6 & R7 & R8).
  assert (FL : 0 <= f_flags f < 256). { rewrite E in B. apply is_bytes_app in B. destruct B as (_ & B). inversion B; subst. exact H1. }
  rewrite E. rewrite (head_dec host g src dest o h pre junk be (f_id f) (f_flags f) (f_addr f) (f_port f)) by (unfold search_head; auto).
  assert (T : is_any (f_addr f) && is_tag o = false) by (destruct o; [apply andb_false_r|apply andb_false_r|congruence]).
  rewrite (after_forward _ _ _ _ _ _ _ _ _ _ _ _ _ _ _ _ _ _ _ _ FS FD R3 FL T F). replace (is_tag o) with false by (destruct o; auto; congruence).
  exists (e_id ++ [Z.land (f_flags f) 127] ++ resv ++ (if is_any (f_addr f) then e_src else e_addr) ++ e_port ++ e_np ++ e_protos ++ e_n ++ e_names ++ more).
  split; [reflexivity|]. split; [|split].
  - exists e_id, resv, (if is_any (f_addr f) then e_src else e_addr), e_port, e_np, e_protos, e_n, e_names, more. cbn [f_id f_flags f_addr f_port f_protos f_names].
    split; auto. split; auto. split; auto. split; [destruct (is_any (f_addr f)); auto|]. auto.
  - rewrite !app_length. f_equal. f_equal. f_equal. f_equal. destruct (is_any (f_addr f)); auto. rewrite (fmt_addr_len _ _ FS), (fmt_addr_len _ _ R3). reflexivity.
  - rewrite E in B. apply is_bytes_app in B. destruct B as (B1 & B). apply is_bytes_app in B. destruct B as (_ & B). apply is_bytes_app in B. destruct B as (B2 & B). apply is_bytes_app in B. destruct B as (B3 & B).
    apply is_bytes_app. split; auto. apply is_bytes_app. split; [|apply is_bytes_app; split; auto; apply is_bytes_app; split; auto; destruct (is_any (f_addr f)); auto].
    constructor; [|constructor]. change 127 with (Z.ones 7). rewrite Z.land_ones by lia. pose proof (Z.mod_pos_bound (f_flags f) (2 ^ 7) ltac:(lia)). change (2 ^ 7) with 128 in *. unfold is_byte. lia.
Qed.

(** ** Beacons *)
Lemma mem_inv : forall n l be, (exists e l', l = e ++ l' /\ length e = n /\ from_wire_mem n false (inbuf l be) = (Some e, inbuf l' be)) \/
  (from_wire_mem n false (inbuf l be) = (None, RB l be true)).
Proof.
  intros n l be. destruct (Nat.le_gt_cases n (length l)) as [L|L].
  - left. exists (firstn n l), (skipn n l). split; [symmetry; apply firstn_skipn|]. assert (X : length (firstn n l) = n) by (rewrite firstn_length; lia). split; auto.
    rewrite <- (firstn_skipn n l) at 1. rewrite from_wire_mem_in by auto. reflexivity.
  - right. unfold from_wire_mem, rensure. cbn [inbuf rerr rd negb andb]. replace (Z.of_nat n <=? zlen l) with false by (unfold zlen; lia). reflexivity.
Qed.
Lemma read_err_str : forall host i c, rerr (buf c) = true -> exists s c', read (from_wire_str host i) c = (s, c') /\ rerr (buf c') = true.
Proof.
  intros host i [m f b] E. unfold read. cbn [buf] in *. pose proof (safe_from_wire_str host i b) as (_ & S). destruct (from_wire_str host i b) as [s b']. eexists _, _. split; [reflexivity|]. apply S. auto.
Qed.
Lemma beacon_eval : forall host g src h pre body junk be guid a port proto, is_unspec src = false -> beacon_body be guid a port proto body ->
  snd (do_beacon host g src h (C pre body junk be)) =
  Beacon_ {| b_version := h_version h; b_guid := guid; b_server := if is_any a then src else a; b_port := port; b_proto := proto |}.
Proof.
  intros host g src h pre body junk be guid a port proto US (four & e_addr & e_port & e_proto & more & -> & L1 & L2 & FA & R & FP). unfold do_beacon.
  rewrite (read_C _ _ (Some guid)) by (rewrite from_wire_mem_in by auto; reflexivity). rewrite skip_C by (unfold zlen; lia). cbv zeta.
  rewrite (read_C _ _ a) by (apply addr_dec; auto). rewrite (read_C _ _ port) by (apply u_dec; auto).
  replace (is_unspec (if is_any a then src else a)) with false by (destruct (is_any a); auto; symmetry; eapply fmt_addr_spec; eauto).
  rewrite (read_C _ _ proto) by (apply str_dec; auto). rewrite good_C. reflexivity.
Qed.
Lemma beacon_sound : forall host g src h pre body junk be, is_bytes body -> is_unspec src = false ->
  match snd (do_beacon host g src h (C pre body junk be)) with
  | Beacon_ b => exists guid a port proto, beacon_body be guid a port proto body /\
      b = {| b_version := h_version h; b_guid := guid; b_server := if is_any a then src else a; b_port := port; b_proto := proto |}
  | Throw | Ignore => True
  | _ => False
  end.
Proof.
  intros host g src h pre body junk be B US.
  assert (END : forall i c, rerr (buf c) = true -> exists s c', read (from_wire_str host i) c = (s, c') /\ good c' = false).
  { intros i c E. destruct (read_err_str host i c E) as (s & c' & X & E'). exists s, c'. split; auto. apply good_err; auto. }
  assert (FIN : forall X (c : cur) srv (s : str) (c' : cur), good c' = false -> match snd (if is_unspec srv then (X : coll, Throw) else (if good c' then (X, Beacon_ {| b_version := 0; b_guid := []; b_server := srv; b_port := 0; b_proto := s |}) else (X, Ignore))) with Throw | Ignore => True | _ => False end).
  { intros X c srv s c' G. destruct (is_unspec srv); [exact I|]. rewrite G. exact I. }
  clear FIN.
  destruct (mem_inv 12 body be) as [(guid & l1 & E & L1 & E1)|E1].
  2: { unfold do_beacon. unfold read at 1. cbn [C buf mem fin]. rewrite E1. cbv zeta. set (c := Cur _ _ _). assert (EC : rerr (buf c) = true) by reflexivity.
    rewrite read_err_addr by (apply skip_err_c; auto). rewrite read_err_u by (apply skip_err_c; auto). match goal with |- context [is_unspec ?x] => destruct (is_unspec x) end; [exact I|].
    destruct (END (c_bproto g) (skip 4 c)) as (s & c' & -> & ->); [apply skip_err_c; auto|]. exact I. }
  rewrite E. rewrite E in B, E1. apply is_bytes_app in B. destruct B as (_ & B). unfold do_beacon. rewrite (read_C _ _ (Some guid)) by exact E1. cbv zeta.
  destruct (do_skip 4 (pre ++ guid) l1 junk be) as [(four & l2 & -> & Z4 & ->)|E4]; [lia| |].
  2: { set (c := skip 4 _) in *. rewrite read_err_addr by auto. rewrite read_err_u by auto. match goal with |- context [is_unspec ?x] => destruct (is_unspec x) end; [exact I|].
    destruct (END (c_bproto g) c) as (s & c' & -> & ->); auto. exact I. }
  apply is_bytes_app in B. destruct B as (_ & B).
  destruct (read_addr (c_bserver g) ((pre ++ guid) ++ four) l2 junk be) as [(a & e_addr & l3 & -> & FA & ->)|(c & -> & E5 & _)].
  2: { rewrite read_err_u by auto. match goal with |- context [is_unspec ?x] => destruct (is_unspec x) end; [exact I|]. destruct (END (c_bproto g) c) as (s & c' & -> & ->); auto. exact I. }
  apply is_bytes_app in B. destruct B as (_ & B).
  destruct (read_u host 2 0 (((pre ++ guid) ++ four) ++ e_addr) l3 junk be B) as [(port & e_port & l4 & -> & R & ->)|(c & -> & E5 & _)].
  2: { match goal with |- context [is_unspec ?x] => destruct (is_unspec x) end; [exact I|]. destruct (END (c_bproto g) c) as (s & c' & -> & ->); auto. exact I. }
  replace (is_unspec (if is_any a then src else a)) with false by (destruct (is_any a); auto; symmetry; eapply fmt_addr_spec; eauto).
  apply is_bytes_app in B. destruct B as (_ & B).
  destruct (read_str host (c_bproto g) ((((pre ++ guid) ++ four) ++ e_addr) ++ e_port) l4 junk be B) as [(proto & e_proto & more & -> & F & ->)|(v & c & -> & E5 & _)].
  2: { rewrite (good_err c E5). exact I. }
  rewrite good_C. cbn [snd]. exists guid, a, port, proto. split; [|reflexivity]. exists four, e_addr, e_port, e_proto, more. repeat split; auto; try (unfold zlen in Z4; lia); try apply R.
Qed.

(** ** Headers *)
Lemma open_dec : forall host pre d junk version be cmd len body, is_bytes d -> message_len version be cmd len body d ->
  exists h pre', open_ host (pre ++ d ++ junk) (length pre) (length pre + length d) = Some (h, C pre' body junk be) /\ h_cmd h = cmd /\ h_version h = version /\ h_len h = len /\
    pre' = pre ++ firstn 8 d /\ d = firstn 8 d ++ body.
Proof.
  intros host pre d junk version be cmd len body B (fl & e4 & -> & V & F1 & F2 & BE & R & LE).
  pose proof (rep_len _ _ _ _ R) as L4. assert (BF : 0 <= fl < 256) by (inversion B; subst; inversion H2; subst; inversion H4; subst; exact H5).
  exists (Header cmd fl version len), (pre ++ [202; version; fl; cmd] ++ e4).
  assert (X8 : firstn 8 ([202; version; fl; cmd] ++ e4 ++ body) = [202; version; fl; cmd] ++ e4).
  { do 4 (destruct e4 as [|? e4]; [discriminate|]). destruct e4; [|discriminate]. reflexivity. }
  rewrite X8. split; [|rewrite <- app_assoc; auto 10].
  unfold open_. rewrite skipn_len_app.  replace (length pre + length ([202%Z; version; fl; cmd] ++ e4 ++ body) - length pre)%nat with (length ([202%Z; version; fl; cmd] ++ e4 ++ body)) by lia.
  rewrite firstn_len_app. unfold read. cbn [buf mem fin]. unfold from_wire_header.
  replace (rensure 8 (RB ([202; version; fl; cmd] ++ e4 ++ body) true false)) with true.
  2: { symmetry. unfold rensure. cbn [rerr rd negb andb]. rewrite !zlen_app. pose proof (zlen_nonneg body). unfold zlen at 1 2. rewrite L4. cbn [length]. lia. }
  cbn [negb orb rd app nth rerr]. change (202 =? 202) with true. replace (version =? 0) with false by (symmetry; apply Z.eqb_neq; auto). cbn [negb orb].
  unfold flag_MSB. rewrite bit7 by auto. rewrite <- BE.
  assert (SK : rskip 4 (RB (202 :: version :: fl :: cmd :: e4 ++ body) be false) = inbuf (e4 ++ body) be).
  { unfold rskip. cbn [rd]. replace (4 <=? zlen (202 :: version :: fl :: cmd :: e4 ++ body)) with true; [reflexivity|]. rewrite !zlen_cons. pose proof (zlen_nonneg (e4 ++ body)). lia. }
  rewrite SK. rewrite (u_dec host 4 _ be len e4) by auto. cbn [good buf inbuf rerr rd negb orb h_flags h_len].
  rewrite (proj2 (no_flags fl BF)) by auto. replace (zlen body <? len) with false by lia. f_equal. f_equal. unfold C. f_equal.
  - repeat (rewrite <- !app_assoc; cbn [app]). reflexivity.
  - rewrite !app_length. cbn [length]. rewrite !app_length. lia.
Qed.
Lemma open_inv : forall host pre d junk h c, is_bytes d -> open_ host (pre ++ d ++ junk) (length pre) (length pre + length d) = Some (h, c) ->
  exists be body, message_len (h_version h) be (h_cmd h) (h_len h) body d /\ c = C (pre ++ firstn 8 d) body junk be.
Proof.
  intros host pre d junk h c B. intros O. pose proof O as O'. unfold open_ in O'. rewrite skipn_len_app in O'. replace (length pre + length d - length pre)%nat with (length d) in O' by lia.
  rewrite firstn_len_app in O'. unfold read in O'. cbn [buf mem fin] in O'. unfold from_wire_header in O'.
  destruct (rensure 8 (RB d true false)) eqn:RE; cbn [negb orb] in O'; [|cbn in O'; discriminate].
  assert (L8 : (8 <= length d)%nat). { unfold rensure in RE. cbn [rerr rd negb andb] in RE. unfold zlen in RE. lia. }
  destruct d as [|m [|version [|fl [|cmd d]]]]; try (cbn in L8; lia). cbn [nth rd rerr] in O'.
  destruct (Z.eqb_spec m 0xca) as [->|N]; cbn [negb orb] in O'; [|cbn in O'; discriminate].
  destruct (Z.eqb_spec version 0) as [->|NV]; [cbn in O'; discriminate|]. 
  assert (BF : 0 <= fl < 256) by (inversion B; subst; inversion H2; subst; inversion H4; subst; exact H5).
  assert (Bd : is_bytes d) by (inversion B; subst; inversion H2; subst; inversion H4; subst; inversion H6; subst; auto).
  set (be := negb (Z.land fl flag_MSB =? 0)) in O'.
  assert (SK : rskip 4 (RB (0xca :: version :: fl :: cmd :: d) be false) = inbuf d be).
  { unfold rskip. cbn [rd]. replace (4 <=? zlen (0xca :: version :: fl :: cmd :: d)) with true; [reflexivity|]. rewrite !zlen_cons. pose proof (zlen_nonneg d). lia. }
  rewrite SK in O'. destruct (u_inv host 4 (h_len (Header 0 0 0 0)) be d Bd) as [(len & e4 & body & E & R & EQ)|(L & EQ)].
  2: { cbn [length] in L8. lia. }
  rewrite EQ in O'. cbn [good buf inbuf rerr rd negb orb h_flags h_len] in O'.
  destruct (negb (Z.land fl (Z.lor flag_Control flag_SegMask) =? 0)) eqn:FF; [discriminate|]. destruct (zlen body <? len) eqn:LE; [discriminate|].
  assert (ML : message_len version be cmd len body (202 :: version :: fl :: cmd :: d)).
  { apply no_flags in FF; auto. destruct FF as (F1 & F2). exists fl, e4. split; [rewrite E; reflexivity|]. split; auto. split; auto. split; auto. split; [apply bit7; auto|]. split; auto. lia. }
  destruct (open_dec host pre (202 :: version :: fl :: cmd :: d) junk version be cmd len body B ML) as (h' & pre' & O2 & H1 & H2 & H3 & H4 & H5).
  rewrite O in O2. inversion O2; subst h' c. exists be, body. rewrite H1, H2, H3. rewrite <- H4. auto.
Qed.

(** ** Origin tags *)
Definition of_local (local : bool) : origin := if local then Local else Remote.
Lemma tag_dec : forall host g src dest d junk orig inner, is_bytes d -> tagged orig inner d -> is_lo_mcast dest = true ->
  process_one host g src dest Local (d ++ junk) (length d) = process_inner host g src orig (d ++ junk) (length d - length inner) (length d) /\
  exists pre, d = pre ++ inner.
Proof.
  intros host g src dest d junk orig inner B (version & be & e_addr & more & M & FA) LO.
  destruct (open_dec host [] d junk _ _ _ _ _ B M) as (h & pre' & O & H1 & H2 & H3 & H4 & H5). cbn [app length Nat.add] in O, H4.
  split; [|exists (firstn 8 d ++ e_addr ++ more); rewrite <- !app_assoc; exact H5].
  unfold process_one. rewrite O, H1. change (cmd_origin_tag =? cmd_search) with false. change (cmd_origin_tag =? cmd_beacon) with false. change (cmd_origin_tag =? cmd_origin_tag) with true. cbv iota.
  rewrite (read_C _ _ orig) by (apply addr_dec; auto). rewrite H3.
  assert (ZM : 0 <= zlen more < 2 ^ 32). { destruct M as (fl & e4 & _ & _ & _ & _ & _ & R & _). pose proof (rep_range _ _ _ _ R). pose proof (zlen_nonneg more). change (8 * Z.of_nat 4) with 32 in H. lia. }
  replace ((16 + zlen more - 16) mod 2 ^ 32) with (zlen more) by (rewrite <- (Z.mod_small (zlen more) (2 ^ 32) ZM) at 1; f_equal; lia).
  cbv zeta. rewrite skip_C by reflexivity. rewrite good_C, LO, pos_C. cbn [andb].
  replace (length ((pre' ++ e_addr) ++ more)) with (length d - length inner)%nat by (rewrite H5, H4, !app_length; lia).
  replace (mem (C ((pre' ++ e_addr) ++ more) inner junk be)) with (d ++ junk); [reflexivity|]. unfold C. cbn [mem]. rewrite H5 at 1. rewrite H4, <- !app_assoc. reflexivity.
Qed.
Lemma tag_inv : forall host g src dest local d junk be body h, is_bytes d -> zlen d <= 65536 -> h_cmd h = cmd_origin_tag ->
  message_len (h_version h) be (h_cmd h) (h_len h) body d -> open_ host (d ++ junk) 0 (length d) = Some (h, C (firstn 8 d) body junk be) ->
  snd (process_one host g src dest (of_local local) (d ++ junk) (length d)) = Ignore \/
  (local = true /\ is_lo_mcast dest = true /\ exists orig inner, tagged orig inner d).
Proof.
  intros host g src dest local d junk be body h B L HC M O.
  assert (D : d = firstn 8 d ++ body). { destruct (open_dec host [] d junk _ _ _ _ _ B M) as (_ & _ & _ & _ & _ & _ & _ & D). exact D. }
  assert (BB : is_bytes body) by (rewrite D in B; apply is_bytes_app in B; apply B).
  assert (HR : 0 <= h_len h < 2 ^ 32). { destruct M as (fl & e4 & _ & _ & _ & _ & _ & R & _). pose proof (rep_range _ _ _ _ R). change (8 * Z.of_nat 4) with 32 in H. lia. }
  unfold process_one. rewrite O, HC. change (cmd_origin_tag =? cmd_search) with false. change (cmd_origin_tag =? cmd_beacon) with false. change (cmd_origin_tag =? cmd_origin_tag) with true. cbv iota.
  set (k := (h_len h - 16) mod 2 ^ 32). assert (KR : 0 <= k) by (apply Z.mod_pos_bound; reflexivity).
  destruct (read_addr SA_unspec (firstn 8 d) body junk be) as [(a & e_addr & l1 & -> & FA & ->)|(c & -> & E & _)].
  2: { left. cbv zeta. rewrite good_err by (apply skip_err_c; auto). reflexivity. }
  cbv zeta. destruct (do_skip k (firstn 8 d ++ e_addr) l1 junk be) as [(more & inner & -> & ZK & ->)|E]; [auto| |].
  2: { left. rewrite good_err by auto. reflexivity. }
  rewrite good_C. destruct local; [|left; reflexivity]. destruct (is_lo_mcast dest) eqn:LO; [|left; reflexivity]. right. split; auto. split; auto.
  exists a, inner, (h_version h), be, e_addr, more. split; auto.
  assert (ZB : zlen more < 65536). { rewrite D in L. rewrite !zlen_app in L. rewrite D in L. pose proof (fmt_addr_len _ _ FA) as FL. pose proof (zlen_nonneg (firstn 8 d)). pose proof (zlen_nonneg inner).
    rewrite <- D in L. unfold zlen at 2 in L. rewrite FL in L. lia. }
  assert (K : h_len h = 16 + zlen more).
  { rewrite ZK. unfold k. destruct (Z.leb_spec 16 (h_len h)).
    - rewrite Z.mod_small by lia. lia.
    - exfalso. unfold k in ZK. replace (h_len h - 16) with ((h_len h - 16 + 2 ^ 32) + (-1) * 2 ^ 32) in ZK by lia. rewrite Z_mod_plus_full in ZK.
      rewrite Z.mod_small in ZK by lia. change (2 ^ 32) with 4294967296 in ZK. lia. }
  rewrite K, HC in M. exact M.
Qed.
