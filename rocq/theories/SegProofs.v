From Coq Require Import ZArith List Bool Lia ZifyBool ZifyNat.
From Verif Require Import Base BaseProofs WireModel WireSpec WireProofs SegModel SegSpec.
Import ListNotations.
Local Open Scope Z_scope.

Lemma run_flat_bind {A B} (p : rprog A) (f : A -> rprog B) b :
  run_flat (pbind p f) b = let '(a, b') := run_flat p b in run_flat (f a) b'.
Proof.
  revert b. induction p; intro b; cbn [pbind run_flat]; auto.
  - destruct (rensure n b); auto.
  - destruct (rensure n b); auto.
Qed.

(** refill keeps the content, and succeeds exactly when enough is there *)
Lemma erefill_ok mss n e ok e' :
  erefill mss n e = (ok, e') -> 0 <= n ->
  econtent e' = econtent e /\ ebe e' = ebe e /\ eerr e' = eerr e /\
  ok = (negb (eerr e) && (n <=? zlen (econtent e))) /\
  (ok = true -> n <= zlen (ewin e')).
Proof.
  unfold erefill. intros H Hn. pose proof (zlen_nonneg (econtent e)).
  destruct (eerr e) eqn:E.
  { inversion H; subst. repeat apply conj; auto; discriminate. }
  destruct (Z.eqb_spec n 0).
  { inversion H; subst. unfold econtent at 1. cbn [ewin eback ebe eerr app].
    repeat apply conj; auto; unfold zlen in *; cbn; lia. }
  destruct (Z.eqb_spec (zlen (econtent e)) 0) as [Z0|Z0].
  { inversion H; subst. unfold econtent at 1. cbn [ewin eback ebe eerr app].
    repeat apply conj; auto; try lia; try discriminate. }
  set (k := Z.max _ _) in H. cbn [ewin] in H. inversion H; subst; clear H.
  unfold econtent at 1. cbn [ewin eback ebe eerr app]. rewrite firstn_skipn.
  assert (L : zlen (firstn (Z.to_nat k) (econtent e)) = Z.min k (zlen (econtent e))).
  { unfold zlen. rewrite firstn_length. lia. }
  repeat apply conj; auto.
  - rewrite L. cbn. unfold k. lia.
  - rewrite L. lia.
Qed.

Lemma eensure_ok mss n e ok e' :
  eensure mss n e = (ok, e') -> 0 <= n ->
  econtent e' = econtent e /\ ebe e' = ebe e /\ eerr e' = eerr e /\
  ok = rensure n (contiguous e) /\ (ok = true -> n <= zlen (ewin e')).
Proof.
  unfold eensure, rensure, contiguous. cbn [rd rerr]. intros H Hn.
  destruct (eerr e) eqn:E.
  { inversion H; subst. repeat apply conj; auto; discriminate. }
  destruct (Z.leb_spec n (zlen (ewin e))).
  - inversion H; subst. repeat apply conj; auto.
    unfold econtent. rewrite zlen_app. pose proof (zlen_nonneg (eback e')). lia.
  - apply erefill_ok in H as (H1 & H2 & H3 & H4 & H5); auto. repeat apply conj; auto; congruence.
Qed.

Lemma firstn_window n e : 0 <= n -> n <= zlen (ewin e) ->
  firstn (Z.to_nat n) (ewin e) = firstn (Z.to_nat n) (econtent e).
Proof.
  intros H L. unfold econtent. rewrite firstn_app.
  replace (Z.to_nat n - length (ewin e))%nat with 0%nat by (unfold zlen in L; lia).
  now rewrite firstn_O, app_nil_r.
Qed.
Lemma eadvance_content n e : 0 <= n -> n <= zlen (ewin e) ->
  econtent (eadvance n e) = skipn (Z.to_nat n) (econtent e).
Proof.
  intros H L. unfold econtent, eadvance. cbn [ewin eback]. rewrite skipn_app.
  replace (Z.to_nat n - length (ewin e))%nat with 0%nat by (unfold zlen in L; lia).
  now rewrite skipn_O.
Qed.

(** a negative request always succeeds and reads nothing, on both kinds of buffer *)
Lemma eensure_neg mss n e : n < 0 -> eensure mss n e = (negb (eerr e), e).
Proof.
  intro H. unfold eensure. destruct (eerr e); auto.
  pose proof (zlen_nonneg (ewin e)). replace (n <=? zlen (ewin e)) with true by lia. reflexivity.
Qed.

Lemma seg_invisible {A} (p : rprog A) : segmentation_invisible p.
Proof.
  intros mss. induction p as [a|n k IH|n k IH|k IH|k IH|be k IH|k IH]; intro e; cbn [run_seg run_flat].
  - reflexivity.
  - destruct (Z_lt_le_dec n 0) as [N|N].
    + rewrite eensure_neg by assumption. unfold rensure. cbn [contiguous rd rerr].
      pose proof (zlen_nonneg (econtent e)). replace (n <=? zlen (econtent e)) with true by lia.
      rewrite andb_true_r. destruct (eerr e) eqn:E; cbn [negb].
      * exact (IH None (efault e)).
      * unfold radvance. replace (Z.to_nat n) with 0%nat by lia. cbn [firstn skipn].
        specialize (IH (Some []) (eadvance n e)).
        assert (C : contiguous (eadvance n e) = contiguous e).
        { unfold contiguous, eadvance, econtent. cbn. replace (Z.to_nat n) with 0%nat by lia. reflexivity. }
        rewrite C in IH. exact IH.
    + destruct (eensure mss n e) as [ok e1] eqn:En.
      destruct (eensure_ok _ _ _ _ _ En N) as (C & B & R & K & W). rewrite <- K.
      destruct ok.
      * specialize (W eq_refl).
        specialize (IH (Some (firstn (Z.to_nat n) (ewin e1))) (eadvance n e1)).
        assert (C1 : contiguous (eadvance n e1) = radvance n (contiguous e)).
        { unfold contiguous, radvance. rewrite eadvance_content by auto. cbn. congruence. }
        rewrite C1 in IH. cbn [contiguous rd] in *. rewrite firstn_window in * by auto.
        rewrite C in *. exact IH.
      * specialize (IH None (efault e1)).
        assert (C1 : contiguous (efault e1) = rfault (contiguous e)).
        { unfold contiguous, rfault, efault. cbn. unfold econtent in *. cbn. congruence. }
        rewrite C1 in IH. exact IH.
  - destruct (Z_lt_le_dec n 0) as [N|N].
    + rewrite eensure_neg by assumption. unfold rensure. cbn [contiguous rd rerr].
      pose proof (zlen_nonneg (econtent e)). replace (n <=? zlen (econtent e)) with true by lia.
      rewrite andb_true_r. destruct (eerr e) eqn:E; cbn [negb].
      * exact (IH None (efault e)).
      * replace (Z.to_nat n) with 0%nat by lia. cbn [firstn]. exact (IH (Some []) e).
    + destruct (eensure mss n e) as [ok e1] eqn:En.
      destruct (eensure_ok _ _ _ _ _ En N) as (C & B & R & K & W). rewrite <- K.
      destruct ok.
      * specialize (W eq_refl).
        specialize (IH (Some (firstn (Z.to_nat n) (ewin e1))) e1).
        assert (C1 : contiguous e1 = contiguous e) by (unfold contiguous; congruence).
        rewrite C1 in IH. cbn [contiguous rd] in *. rewrite firstn_window in * by auto.
        rewrite C in *. exact IH.
      * specialize (IH None (efault e1)).
        assert (C1 : contiguous (efault e1) = rfault (contiguous e)).
        { unfold contiguous, rfault, efault. cbn. unfold econtent in *. cbn. congruence. }
        rewrite C1 in IH. exact IH.
  - exact (IH (efault e)).
  - exact (IH (ebe e) e).
  - exact (IH (EB (ewin e) (eback e) be (eerr e) (eorc e))).
  - exact (IH (negb (eerr e)) e).
Qed.

(** ** the decoders of the model are programs *)
Lemma api_ret {A} (a : A) : uses_buffer_api (fun b => (a, b)).
Proof. exists (PRet a). intro b. reflexivity. Qed.
Lemma api_bind {A B} (d : rbuf -> A * rbuf) (f : A -> rbuf -> B * rbuf) (pf : A -> rprog B) :
  uses_buffer_api d -> (forall a, buffer_program (f a) (pf a)) ->
  uses_buffer_api (fun b => let '(a, b') := d b in f a b').
Proof.
  intros [p P] F. exists (pbind p pf). intro b. rewrite run_flat_bind, P.
  destruct (d b) as [a b']. apply F.
Qed.

Definition p_mem (n : nat) (reverse : bool) : rprog (option (list Z)) :=
  PTake (Z.of_nat n) (fun o => PRet (match o with Some m => Some (if reverse then rev m else m) | None => None end)).
Lemma p_mem_ok n r : buffer_program (from_wire_mem n r) (p_mem n r).
Proof.
  intro b. unfold from_wire_mem, p_mem. cbn [run_flat]. rewrite Nat2Z.id.
  destruct (rensure _ b); reflexivity.
Qed.
Definition p_u (host : bool) (n : nat) (init : Z) : rprog Z :=
  PGetBe (fun be => pbind (p_mem n (xorb be host))
    (fun o => PRet (match o with Some m => of_mem host m | None => init end))).
Lemma p_u_ok h n i : buffer_program (from_wire_u h n i) (p_u h n i).
Proof.
  intro b. unfold p_u. cbn [run_flat]. rewrite run_flat_bind, p_mem_ok. unfold from_wire_u.
  destruct (from_wire_mem _ _ b) as [[m|] b']; reflexivity.
Qed.
Definition p_s (host : bool) (n : nat) (init : Z) : rprog Z :=
  PGetBe (fun be => pbind (p_mem n (xorb be host))
    (fun o => PRet (match o with Some m => s_cast n (of_mem host m) | None => init end))).
Lemma p_s_ok h n i : buffer_program (from_wire_s h n i) (p_s h n i).
Proof.
  intro b. unfold p_s. cbn [run_flat]. rewrite run_flat_bind, p_mem_ok. unfold from_wire_s.
  destruct (from_wire_mem _ _ b) as [[m|] b']; reflexivity.
Qed.
Lemma firstn1_hd l : rensure 1 l = true -> hd 0 (firstn 1 (rd l)) = hd 0 (rd l).
Proof. destruct (rd l); reflexivity. Qed.

Definition p_size (host : bool) (init : Z) (allow_null : bool) : rprog Z :=
  PTake 1 (fun o => match o with
    | None => PRet init
    | Some l => let s := hd 0 l in
        if s <? 254 then PRet s
        else if s =? 254 then p_u host 4 0
        else if (s =? 255) && allow_null then PRet size_null
        else PFault (PRet init)
    end).
Lemma p_size_ok h i a : buffer_program (from_wire_size h i a) (p_size h i a).
Proof.
  intro b. unfold from_wire_size, p_size. cbn [run_flat].
  destruct (rensure 1 b) eqn:E; [|reflexivity]. cbn [negb]. change (Z.to_nat 1) with 1%nat.
  rewrite firstn1_hd by assumption.
  destruct (_ <? 254); [reflexivity|].
  destruct (_ =? 254); [apply p_u_ok|].
  destruct (_ && a); reflexivity.
Qed.
Definition p_sel (host : bool) (init : Z) : rprog Z :=
  PTake 1 (fun o => match o with
    | None => PRet init
    | Some l => let s := hd 0 l in
        if s <? 254 then PRet s
        else if s =? 254 then p_u host 4 0
        else if s =? 255 then PRet (-1)
        else PFault (PRet init)
    end).
Lemma p_sel_ok h i : buffer_program (from_wire_sel h i) (p_sel h i).
Proof.
  intro b. unfold from_wire_sel, p_sel. cbn [run_flat].
  destruct (rensure 1 b) eqn:E; [|reflexivity]. cbn [negb]. change (Z.to_nat 1) with 1%nat.
  rewrite firstn1_hd by assumption.
  destruct (_ <? 254); [reflexivity|].
  destruct (_ =? 254); [apply p_u_ok|].
  destruct (_ =? 255); reflexivity.
Qed.
Definition p_str (host : bool) (init : str) : rprog str :=
  pbind (p_size host 0 true) (fun len =>
    if len =? size_null then PRet []
    else PTake len (fun o => PRet (match o with Some l => l | None => init end))).
Lemma p_str_ok h i : buffer_program (from_wire_str h i) (p_str h i).
Proof.
  intro b. unfold p_str. rewrite run_flat_bind, p_size_ok. unfold from_wire_str.
  destruct (from_wire_size h 0 true b) as [len b1].
  destruct (len =? size_null); [reflexivity|]. cbn [run_flat].
  destruct (rensure len b1); reflexivity.
Qed.
Fixpoint p_strs (host : bool) (c : nat) : rprog (list str) :=
  match c with
  | O => PRet []
  | S c' => pbind (p_str host []) (fun s => pbind (p_strs host c') (fun l => PRet (s :: l)))
  end.
Lemma p_strs_ok h c : buffer_program (from_wire_strs h c) (p_strs h c).
Proof.
  induction c as [|c IH]; intro b; cbn [p_strs from_wire_strs]; [reflexivity|].
  rewrite run_flat_bind, p_str_ok. destruct (from_wire_str h [] b) as [s b1].
  rewrite run_flat_bind, IH. destruct (from_wire_strs h c b1). reflexivity.
Qed.
Definition p_stra (host : bool) : rprog (list str) :=
  pbind (p_size host 0 false) (fun len => p_strs host (Z.to_nat len)).
Lemma p_stra_ok h : buffer_program (from_wire_stra h) (p_stra h).
Proof.
  intro b. unfold p_stra. rewrite run_flat_bind, p_size_ok. unfold from_wire_stra.
  destruct (from_wire_size h 0 false b). apply p_strs_ok.
Qed.
Fixpoint p_elems (host : bool) (n c : nat) : rprog (list Z) :=
  match c with
  | O => PRet []
  | S c' => PPeek (Z.of_nat n) (fun o => match o with
      | None => PRet (repeat 0 (S c'))
      | Some _ => pbind (p_u host n 0) (fun v => pbind (p_elems host n c') (fun l => PRet (v :: l)))
      end)
  end.
Lemma p_elems_ok h n c : buffer_program (from_wire_elems h n c) (p_elems h n c).
Proof.
  induction c as [|c IH]; intro b; cbn [p_elems from_wire_elems run_flat]; [reflexivity|].
  destruct (rensure _ b); cbn [negb]; [|reflexivity].
  rewrite run_flat_bind, p_u_ok. destruct (from_wire_u h n 0 b) as [v b1].
  rewrite run_flat_bind, IH. destruct (from_wire_elems h n c b1). reflexivity.
Qed.
Definition p_pod (host : bool) (n : nat) : rprog (list Z) :=
  pbind (p_size host 0 false) (fun len => p_elems host n (Z.to_nat len)).
Lemma p_pod_ok h n : buffer_program (from_wire_pod h n) (p_pod h n).
Proof.
  intro b. unfold p_pod. rewrite run_flat_bind, p_size_ok. unfold from_wire_pod.
  destruct (from_wire_size h 0 false b). apply p_elems_ok.
Qed.
Definition p_status (host : bool) (init : status) : rprog status :=
  PPeek 1 (fun o => match o with
    | None => PRet init
    | Some l =>
        if hd 0 l =? 255 then PTake 1 (fun _ => PRet (Status 0 [] []))
        else PTake 1 (fun _ =>
          pbind (p_str host (st_msg init)) (fun m =>
          pbind (p_str host (st_trace init)) (fun t =>
          PRet (Status (hd 0 l) m t))))
    end).
Lemma p_status_ok h i : buffer_program (from_wire_status h i) (p_status h i).
Proof.
  intro b. unfold from_wire_status, p_status. cbn [run_flat].
  destruct (rensure 1 b) eqn:E; [|reflexivity]. cbn [negb]. change (Z.to_nat 1) with 1%nat.
  rewrite firstn1_hd by assumption.
  destruct (_ =? 255); cbn [run_flat]; rewrite E; [reflexivity|].
  rewrite run_flat_bind, p_str_ok. destruct (from_wire_str h (st_msg i) _) as [m b2].
  rewrite run_flat_bind, p_str_ok. destruct (from_wire_str h (st_trace i) b2). reflexivity.
Qed.
Definition p_header (host : bool) (init : header) : rprog header :=
  PPeek 8 (fun o => match o with
    | None => PRet init
    | Some l =>
        if negb (nth 0 l 0 =? 0xca) || (nth 1 l 0 =? 0) then PFault (PRet init)
        else PSetBe (negb (Z.land (nth 2 l 0) flag_MSB =? 0))
          (PTake 4 (fun _ => pbind (p_u host 4 (h_len init))
             (fun len => PRet (Header (nth 3 l 0) (nth 2 l 0) (nth 1 l 0) len))))
    end).
Lemma p_header_ok h i : buffer_program (from_wire_header h i) (p_header h i).
Proof.
  intro b. unfold from_wire_header, p_header. cbn [run_flat].
  destruct (rensure 8 b) eqn:E; [|reflexivity]. cbn [negb orb]. change (Z.to_nat 8) with 8%nat.
  assert (N : forall k, (k < 8)%nat -> nth k (firstn 8 (rd b)) 0 = nth k (rd b) 0).
  { intros k Hk. rewrite <- (firstn_skipn 8 (rd b)) at 2. rewrite app_nth1; auto.
    unfold rensure, zlen in E. rewrite firstn_length. lia. }
  rewrite !N by lia.
  destruct (_ || _); [reflexivity|]. cbn [run_flat].
  set (b0 := RB _ _ _).
  assert (E4 : rensure 4 b0 = true) by (unfold rensure, b0 in *; cbn [rerr rd] in *; lia).
  rewrite E4. unfold rskip. cbn [rd b0]. unfold rensure in E. replace (4 <=? zlen (rd b)) with true by lia.
  rewrite run_flat_bind, p_u_ok. destruct (from_wire_u h 4 (h_len i) _). reflexivity.
Qed.
Definition p_addr (init : sockaddr) : rprog sockaddr :=
  PTake 16 (fun o => PRet (match o with
    | None => init
    | Some a =>
        if forallb (fun x => x =? 0) (firstn 10 a) && (nth 10 a 0 =? 0xff) && (nth 11 a 0 =? 0xff)
        then SA_in (skipn 12 a) else SA_in6 a
    end)).
Lemma p_addr_ok i : buffer_program (from_wire_addr i) (p_addr i).
Proof.
  intro b. unfold from_wire_addr, p_addr. cbn [run_flat]. destruct (rensure 16 b); reflexivity.
Qed.

(** ** the slice by slice array loop *)
Lemma eskip_window mss n e : 0 <= n -> n <= zlen (ewin e) -> eskip mss n e = eadvance n e.
Proof. intros H L. unfold eskip. replace (n <=? zlen (ewin e)) with true by lia. reflexivity. Qed.

Lemma ldiff_pow2 x k : 0 <= x -> 0 <= k -> Z.ldiff x (2 ^ k - 1) = x - x mod 2 ^ k.
Proof.
  intros Hx Hk. replace (2 ^ k - 1) with (Z.ones k) by (rewrite Z.ones_equiv; lia).
  rewrite Z.ldiff_ones_r by lia. rewrite Z.shiftr_div_pow2, Z.shiftl_mul_pow2 by lia.
  pose proof (Z.div_mod x (2 ^ k)). assert (0 < 2 ^ k) by (apply Z.pow_pos_nonneg; lia). lia.
Qed.

(** reading [c] elements at once from a contiguous area is reading them one by one *)
Lemma from_wire_elems_split h n a c b :
  from_wire_elems h n (a + c) b =
  let '(l1, b1) := from_wire_elems h n a b in
  if rerr b1 then (l1 ++ repeat 0 c, b1) else
  let '(l2, b2) := from_wire_elems h n c b1 in (l1 ++ l2, b2).
Proof.
  revert b. induction a as [|a IH]; intro b.
  - cbn [from_wire_elems plus]. destruct (rerr b) eqn:E; cbn [app].
    + destruct c as [|c]; [reflexivity|]. cbn [from_wire_elems]. unfold rensure. rewrite E. cbn [negb andb].
      destruct b; cbn in *; subst; reflexivity.
    + destruct (from_wire_elems h n c b); reflexivity.
  - cbn [from_wire_elems plus]. destruct (rensure (Z.of_nat n) b) eqn:E; cbn [negb].
    + destruct (from_wire_u h n 0 b) as [v b1]. rewrite IH.
      destruct (from_wire_elems h n a b1) as [l1 b2]. destruct (rerr b2); [reflexivity|].
      destruct (from_wire_elems h n c b2). reflexivity.
    + cbn [rfault rerr]. rewrite <- repeat_app. reflexivity.
Qed.

Lemma from_wire_elems_all h n c b :
  (0 < n)%nat -> rerr b = false -> Z.of_nat n * Z.of_nat c <= zlen (rd b) ->
  from_wire_elems h n c b =
  (map (fun m => of_mem h (if Bool.eqb (rbe b) h then m else rev m)) (split_every n c (rd b)),
   RB (skipn (n * c) (rd b)) (rbe b) false).
Proof.
  intro Hn. revert b. induction c as [|c IH]; intros b E L; cbn [from_wire_elems split_every].
  - rewrite Nat.mul_0_r. cbn [map skipn]. destruct b; cbn in *; subst; reflexivity.
  - assert (EN : rensure (Z.of_nat n) b = true) by (unfold rensure; rewrite E; cbn; lia).
    rewrite EN. cbn [negb].
    unfold from_wire_u, from_wire_mem. rewrite EN. cbn [negb].
    rewrite IH; [|exact E|].
    + cbn [radvance rd rbe]. rewrite Nat2Z.id.
      assert (D : rd b <> []).
      { destruct (rd b); [|discriminate]. unfold zlen in L. cbn in L. lia. }
      destruct (rd b) as [|x l] eqn:R; [contradiction|]. rewrite <- R in *. clear D R x l.
      cbn [map]. f_equal.
      * f_equal. f_equal. destruct (rbe b), h; reflexivity.
      * rewrite skipn_skipn. f_equal. f_equal. lia.
    + cbn [radvance rd]. rewrite Nat2Z.id. unfold zlen in *. rewrite skipn_length. lia.
Qed.

Lemma split_every_firstn n c l extra :
  (0 < n)%nat -> (n * c <= length l)%nat ->
  split_every n (c + extra) (firstn (n * c) l) = split_every n c l.
Proof.
  intro Hn. revert l. induction c as [|c IH]; intros l L.
  - rewrite Nat.mul_0_r. cbn. destruct extra; reflexivity.
  - cbn [plus split_every].
    destruct l as [|x l]; [cbn in L; lia|]. set (l0 := x :: l) in *.
    destruct (firstn (n * S c) l0) eqn:F.
    { destruct n; [lia|]. cbn in F. discriminate. }
    rewrite <- F. clear F. unfold l0 at 3.
    f_equal.
    + rewrite firstn_firstn. f_equal. lia.
    + rewrite <- IH; [|rewrite skipn_length; lia]. f_equal.
      rewrite skipn_firstn_comm. f_equal. lia.
Qed.

Lemma seg_pod_loop_ok k mss h n :
  Z.of_nat n = 2 ^ Z.of_nat k ->
  forall fuel c e, (c <= fuel)%nat ->
    exists l e', seg_pod_loop fuel mss h n (Z.of_nat n * Z.of_nat c) e = Some (l, e') /\
      from_wire_elems h n c (contiguous e) = (l, contiguous e').
Proof.
  intros Hn.
  assert (P : 0 < Z.of_nat n) by (rewrite Hn; apply Z.pow_pos_nonneg; lia).
  induction fuel as [|fuel IH]; intros c e Hc.
  { assert (c = 0%nat) by lia. subst c. exists [], e. rewrite Z.mul_0_r. split; reflexivity. }
  cbn [seg_pod_loop].
  destruct (Z.eqb_spec (Z.of_nat n * Z.of_nat c) 0) as [Z0|Z0].
  { assert (c = 0%nat) by nia. subst c. exists [], e. split; reflexivity. }
  assert (Hc1 : (1 <= c)%nat) by nia.
  destruct (eensure mss (Z.of_nat n) e) as [ok e1] eqn:En.
  destruct (eensure_ok _ _ _ _ _ En ltac:(lia)) as (C & B & R & K & W).
  destruct ok; cbn [negb].
  - specialize (W eq_refl).
    set (m := Z.min (zlen (ewin e1)) (Z.of_nat n * Z.of_nat c)).
    assert (Hm : Z.of_nat n <= m) by (unfold m; nia).
    rewrite Hn. rewrite ldiff_pow2 by lia. rewrite <- Hn.
    set (nb := m - m mod Z.of_nat n).
    assert (D : nb = Z.of_nat n * (m / Z.of_nat n)).
    { unfold nb. pose proof (Z.div_mod m (Z.of_nat n)). lia. }
    set (q := Z.to_nat (m / Z.of_nat n)).
    assert (Q : m / Z.of_nat n = Z.of_nat q).
    { unfold q. rewrite Z2Nat.id; auto. apply Z.div_pos; lia. }
    assert (Q1 : (1 <= q)%nat).
    { assert (1 <= m / Z.of_nat n) by (apply Z.div_le_lower_bound; lia). lia. }
    assert (Q2 : (q <= c)%nat).
    { assert (m / Z.of_nat n <= Z.of_nat c) by (apply Z.div_le_upper_bound; unfold m; lia). lia. }
    assert (NB : nb = Z.of_nat n * Z.of_nat q) by lia.
    assert (NW : nb <= zlen (ewin e1)).
    { pose proof (Z.mod_pos_bound m (Z.of_nat n)). unfold nb. unfold m at 1. lia. }
    rewrite eskip_window by lia.
    replace (Z.of_nat n * Z.of_nat c - nb) with (Z.of_nat n * Z.of_nat (c - q)) by nia.
    destruct (IH (c - q)%nat (eadvance nb e1) ltac:(lia)) as (l & e' & L1 & L2).
    rewrite L1. eexists _, e'. split; [reflexivity|].
    replace c with (q + (c - q))%nat at 1 by lia.
    rewrite from_wire_elems_split.
    assert (EE : eerr e = false).
    { unfold rensure in K. cbn in K. destruct (eerr e); [discriminate|reflexivity]. }
    rewrite from_wire_elems_all.
    + cbn [rerr contiguous rd rbe].
      assert (C1 : contiguous (eadvance nb e1) = RB (skipn (n * q) (econtent e)) (ebe e) false).
      { unfold contiguous. rewrite eadvance_content by lia. cbn. rewrite C, B, R, EE.
        f_equal. f_equal. lia. }
      rewrite C1 in L2. rewrite L2. f_equal. f_equal.
      rewrite B. f_equal.
      rewrite firstn_window by lia. rewrite C.
      replace (Z.to_nat nb) with (n * q)%nat by lia.
      assert (LL : (n * q <= length (econtent e))%nat).
      { rewrite <- C. unfold econtent. rewrite app_length. unfold zlen in NW. lia. }
      rewrite firstn_length_le by lia.
      replace (n * q)%nat with (q + (n * q - q))%nat at 1 by nia.
      rewrite split_every_firstn by lia. reflexivity.
    + lia.
    + exact EE.
    + cbn [contiguous rd]. rewrite <- C. unfold econtent. rewrite zlen_app. pose proof (zlen_nonneg (eback e1)). lia.
  - eexists _, _. split; [reflexivity|].
    destruct c as [|c]; [lia|]. cbn [from_wire_elems]. rewrite <- K. cbn [negb].
    f_equal.
    + f_equal. rewrite Z.mul_comm, Z.div_mul by lia. lia.
    + unfold rfault, contiguous, efault, econtent in *. cbn. congruence.
Qed.

(** ** writing arrays slice by slice *)
Lemma oensure_ok n o ok o' : oensure n o = (ok, o') -> 0 < n ->
  odone o' = odone o /\ obe o' = obe o /\ oerr o' = oerr o /\ ok = negb (oerr o) /\
  (ok = true -> n <= oroom o').
Proof.
  unfold oensure, orefill. intros H N. destruct (oerr o) eqn:E.
  { inversion H; subst. repeat apply conj; auto. discriminate. }
  destruct (Z.leb_spec n (oroom o)).
  - inversion H; subst. repeat apply conj; auto.
  - replace (n =? 0) with false in H by lia. inversion H; subst. cbn. repeat apply conj; auto. lia.
Qed.

(** memory image of an array *)
Fixpoint mem_array (host : bool) (n : nat) (l : list Z) : list Z :=
  match l with [] => [] | v :: l' => mem_of host n (u_cast n v) ++ mem_array host n l' end.
Lemma mem_array_length h n l : length (mem_array h n l) = (n * length l)%nat.
Proof. induction l; cbn [mem_array length]; [lia|]. rewrite app_length, mem_of_length. lia. Qed.

Lemma split_mem_array h n l extra : (0 < n)%nat ->
  split_every n (length l + extra) (mem_array h n l) = map (fun v => mem_of h n (u_cast n v)) l.
Proof.
  intro Hn. induction l as [|v l IH]; cbn [length mem_array map plus split_every].
  - destruct extra; reflexivity.
  - destruct (mem_of h n (u_cast n v) ++ mem_array h n l) eqn:E.
    { apply (f_equal (@length Z)) in E. rewrite app_length, mem_of_length in E. cbn in E. lia. }
    rewrite <- E. clear E.
    pose proof (mem_of_length h n (u_cast n v)) as ML.
    rewrite firstn_app, skipn_app, ML, Nat.sub_diag, firstn_all2, skipn_all2 by lia.
    cbn [firstn skipn app]. rewrite app_nil_r, IH. reflexivity.
Qed.
Lemma enc_elems_map be n l : enc_elems be n l = concat (map (enc_u be n) l).
Proof. induction l; cbn [enc_elems map concat]; congruence. Qed.
Lemma mem_array_map h n l : mem_array h n l = concat (map (fun v => mem_of h n (u_cast n v)) l).
Proof. induction l; cbn [mem_array map concat]; congruence. Qed.
Lemma mem_enc h be n v : (if Bool.eqb be h then mem_of h n (u_cast n v) else rev (mem_of h n (u_cast n v))) = enc_u be n v.
Proof. unfold mem_of, enc_u. destruct be, h; cbn; rewrite ?rev_involutive; reflexivity. Qed.

Lemma mem_array_app h n a b : mem_array h n (a ++ b) = mem_array h n a ++ mem_array h n b.
Proof. induction a; cbn [app mem_array]; [reflexivity|]. now rewrite IHa, app_assoc. Qed.
Lemma enc_elems_app be n a b : enc_elems be n (a ++ b) = enc_elems be n a ++ enc_elems be n b.
Proof. induction a; cbn [app enc_elems]; [reflexivity|]. now rewrite IHa, app_assoc. Qed.

Lemma out_pod_loop_ok k h n :
  Z.of_nat n = 2 ^ Z.of_nat k ->
  forall fuel l o, (length l <= fuel)%nat -> oerr o = false ->
    exists o', out_pod_loop fuel h n (mem_array h n l) o = Some o' /\
      odone o' = odone o ++ enc_elems (obe o) n l /\ obe o' = obe o /\ oerr o' = false.
Proof.
  intro Hn. assert (P : 0 < Z.of_nat n) by (rewrite Hn; apply Z.pow_pos_nonneg; lia).
  induction fuel as [|fuel IH]; intros l o Hl Ho.
  { destruct l; [|cbn in Hl; lia]. exists o. cbn. rewrite app_nil_r. auto. }
  cbn [out_pod_loop].
  assert (ZL : zlen (mem_array h n l) = Z.of_nat n * zlen l) by (unfold zlen; rewrite mem_array_length; lia).
  rewrite ZL. pose proof (zlen_nonneg l).
  destruct (Z.eqb_spec (Z.of_nat n * zlen l) 0) as [Z0|Z0].
  { assert (L0 : zlen l = 0) by nia. destruct l; [|unfold zlen in L0; cbn in L0; lia].
    exists o. cbn. rewrite app_nil_r. auto. }
  destruct (oensure (Z.of_nat n) o) as [ok o1] eqn:En.
  destruct (oensure_ok _ _ _ _ En P) as (D1 & B1 & E1 & K & W).
  rewrite Ho in K. cbn in K. subst ok. cbn [negb]. specialize (W eq_refl).
  set (m := Z.min (oroom o1) (Z.of_nat n * zlen l)).
  assert (1 <= zlen l) by nia.
  assert (Hm : Z.of_nat n <= m) by (unfold m; apply Z.min_glb; nia).
  rewrite Hn, ldiff_pow2 by lia. rewrite <- Hn.
  set (nb := m - m mod Z.of_nat n).
  assert (D : nb = Z.of_nat n * (m / Z.of_nat n)).
  { unfold nb. pose proof (Z.div_mod m (Z.of_nat n)). lia. }
  set (q := Z.to_nat (m / Z.of_nat n)).
  assert (Q : m / Z.of_nat n = Z.of_nat q).
  { unfold q. rewrite Z2Nat.id; auto. apply Z.div_pos; lia. }
  assert (Q1 : (1 <= q)%nat).
  { assert (1 <= m / Z.of_nat n) by (apply Z.div_le_lower_bound; lia). lia. }
  assert (Q2 : (q <= length l)%nat).
  { assert (m / Z.of_nat n <= zlen l) by (apply Z.div_le_upper_bound; unfold m; lia). unfold zlen in *. lia. }
  set (l1 := firstn q l). set (l2 := skipn q l).
  assert (LL : l = l1 ++ l2) by (symmetry; apply firstn_skipn).
  assert (L1 : length l1 = q) by (unfold l1; rewrite firstn_length; lia).
  assert (NQ : Z.to_nat nb = length (mem_array h n l1)) by (rewrite mem_array_length; lia).
  rewrite LL, mem_array_app, NQ, firstn_len_app, skipn_len_app.
  set (data := if Bool.eqb (obe o1) h then _ else _).
  assert (DD : data = enc_elems (obe o1) n l1).
  { unfold data. rewrite mem_array_length, L1.
    replace (n * q)%nat with (length l1 + (n * q - q))%nat by nia.
    rewrite split_mem_array by lia. rewrite enc_elems_map, mem_array_map.
    pose proof (mem_enc h (obe o1) n) as ME.
    destruct (Bool.eqb (obe o1) h).
    - f_equal. apply map_ext. exact ME.
    - f_equal. rewrite map_map. apply map_ext. exact ME. }
  rewrite DD.
  destruct (IH l2 (opush (enc_elems (obe o1) n l1) o1)) as (o' & R1 & R2 & R3 & R4).
  { unfold l2. rewrite skipn_length. lia. }
  { cbn. congruence. }
  exists o'. split; [exact R1|]. cbn [opush odone obe] in *. rewrite R2, R3.
  rewrite enc_elems_app, app_assoc. rewrite <- B1, D1. auto.
Qed.

Lemma enc_elems_length be n l : length (enc_elems be n l) = (n * length l)%nat.
Proof. induction l; cbn [enc_elems length]; [lia|]. rewrite app_length, enc_u_length. lia. Qed.
