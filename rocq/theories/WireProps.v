(** Properties C01-C07, C51, C56 of the primitive wire codec. *)
From Coq Require Import String ZArith List Bool Lia ZifyBool ZifyNat.
From Verif Require Import Base BaseProofs WireModel WireSpec WireProofs.
Import ListNotations.
Local Open Scope Z_scope.

(** ** C01 *)

(** Every unsigned integer (or bit pattern) of [n] bytes is transported, for
    either byte order, between hosts of either native byte order. *)
Theorem C01_scalar_roundtrip :
  forall (hostW hostR be : bool) (n : nat) (init v : Z),
    (0 < n)%nat -> 0 <= v < 2 ^ (8 * Z.of_nat n) ->
    transports_strict be (to_wire_u hostW n v) (from_wire_u hostR n init) v.
Proof.
  intros hW hR be n init v Hn Hv. exists (enc_u be n v). split; [|split].
  - intro pre. apply to_wire_u_out.
  - intro rest. now apply from_wire_u_in.
  - intros e1 e2 E N. apply prefix_faults_u.
    pose proof (enc_u_length be n v) as L. rewrite E, app_length in L.
    destruct e2; [contradiction|]. cbn in L. lia.
Qed.
Print Assumptions C01_scalar_roundtrip.
Example C01_ex : transports_strict true (to_wire_u false 4 0xdeadbeef) (from_wire_u true 4 0) 0xdeadbeef.
Proof. apply C01_scalar_roundtrip; lia. Qed.

(** The same for signed integers. *)
Theorem C01_signed_roundtrip :
  forall (hostW hostR be : bool) (n : nat) (init v : Z),
    (0 < n)%nat -> - 2 ^ (8 * Z.of_nat n - 1) <= v < 2 ^ (8 * Z.of_nat n - 1) ->
    transports be (to_wire_u hostW n v) (from_wire_s hostR n init) v.
Proof.
  intros hW hR be n init v Hn Hv. exists (enc_u be n v). split.
  - intro pre. apply to_wire_u_out.
  - intro rest. now apply from_wire_s_in.
Qed.
Print Assumptions C01_signed_roundtrip.
Example C01_signed_ex : transports false (to_wire_u false 2 (-2)) (from_wire_s false 2 0) (-2).
Proof. apply C01_signed_roundtrip; cbn; lia. Qed.

(** The bytes are the base 256 digits of the value in the selected order,
    whatever the host. *)
Theorem C01_bytes_are_digits :
  forall (host be : bool) (n : nat) (v : Z) (pre : list Z),
    0 <= v < 2 ^ (8 * Z.of_nat n) ->
    exists e, to_wire_u host n v (outbuf pre be) = outbuf (pre ++ e) be /\ represents be n v e.
Proof.
  intros h be n v pre Hv. exists (enc_u be n v). split; [apply to_wire_u_out|].
  split; [apply enc_u_length|]. unfold digits_le, enc_u. rewrite u_cast_id by assumption.
  assert (D : v = fold_right (fun d acc => d + 256 * acc) 0 (le_bytes n v)).
  { rewrite <- (le_val_le_bytes n v Hv) at 1. generalize (le_bytes n v).
    induction l as [|x l IH]; cbn [le_val fold_right]; congruence. }
  destruct be; rewrite ?rev_involutive; split; auto; apply le_bytes_bytes.
Qed.
Print Assumptions C01_bytes_are_digits.

(** ** C02 *)
Theorem C02_size_roundtrip :
  forall hostW hostR be init allow_null n, 0 <= n < 2 ^ 32 ->
    transports_strict be (to_wire_size hostW n) (from_wire_size hostR init allow_null) n.
Proof.
  intros hW hR be i a n H. exists (enc_size be n). split; [|split].
  - intro pre. apply to_wire_size_out. lia.
  - intro rest. apply from_wire_size_in. lia.
  - intros e1 e2 E N. eapply prefix_faults_size; eassumption.
Qed.
Print Assumptions C02_size_roundtrip.
Example C02_ex : transports_strict true (to_wire_size false 70000) (from_wire_size false 0 true) 70000.
Proof. apply C02_size_roundtrip. lia. Qed.

(** A length which does not fit 32 bits is refused. *)
Theorem C02_size_overflow_refused :
  forall host n w, 2 ^ 32 <= n -> werr (to_wire_size host n w) = true.
Proof. intros. apply to_wire_size_big. lia. Qed.
Print Assumptions C02_size_overflow_refused.

(** The null length is understood only where null is allowed. *)
Theorem C02_null_length :
  forall host init be rest,
    from_wire_size host init true (inbuf (255 :: rest) be) = (size_null, inbuf rest be) /\
    rerr (snd (from_wire_size host init false (inbuf (255 :: rest) be))) = true.
Proof.
  intros. unfold from_wire_size. rewrite rensure1, radvance1. cbn. auto.
Qed.
Print Assumptions C02_null_length.

Theorem C02_selector_roundtrip :
  forall hostW hostR be init n, -1 <= n < 2 ^ 32 ->
    transports_strict be (to_wire_sel hostW n) (from_wire_sel hostR init) n.
Proof.
  intros hW hR be i n H. exists (enc_sel be n). split; [|split].
  - intro pre. apply to_wire_sel_out. lia.
  - intro rest. apply from_wire_sel_in. lia.
  - intros e1 e2 E N. destruct e1 as [|x e1]; [reflexivity|].
    unfold enc_sel, enc_size in E. destruct (n <=? -1); [|destruct (n <? 254)].
    + cbn in E. injection E as _ E. symmetry in E. apply app_eq_nil in E as [_ E]. contradiction.
    + cbn in E. injection E as _ E. symmetry in E. apply app_eq_nil in E as [_ E]. contradiction.
    + injection E as <- E. unfold from_wire_sel. rewrite rensure1, radvance1. cbn [negb inbuf rd hd].
      change (254 <? 254) with false. change (254 =? 254) with true. cbv iota.
      apply prefix_faults_u. pose proof (enc_u_length be 4 n) as L. rewrite E, app_length in L.
      destruct e2; [contradiction|]. cbn in L. lia.
Qed.
Print Assumptions C02_selector_roundtrip.
Example C02_sel_ex : transports_strict true (to_wire_sel false (-1)) (from_wire_sel false 0) (-1).
Proof. apply C02_selector_roundtrip. lia. Qed.

(** ** C03 *)
Theorem C03_string_roundtrip :
  forall hostW hostR be init (s : str), zlen s < 2 ^ 32 ->
    transports_strict be (to_wire_str hostW s) (from_wire_str hostR init) s.
Proof.
  intros hW hR be i s H. exists (enc_str be s). split; [|split].
  - intro pre. apply to_wire_str_out. lia.
  - intro rest. apply from_wire_str_in. lia.
  - intros e1 e2 E N. eapply prefix_faults_str; try eassumption. lia.
Qed.
Print Assumptions C03_string_roundtrip.
Example C03_ex : transports_strict true (to_wire_str false (bs "hello" ++ [0; 200])) (from_wire_str false []) (bs "hello" ++ [0; 200]).
Proof. apply C03_string_roundtrip. unfold zlen. cbn. lia. Qed.

Theorem C03_null_string :
  forall host init be rest,
    from_wire_str host init (inbuf (255 :: rest) be) = ([], inbuf rest be).
Proof.
  intros. unfold from_wire_str, from_wire_size. rewrite rensure1, radvance1. reflexivity.
Qed.
Print Assumptions C03_null_string.

Theorem C03_string_array_roundtrip :
  forall hostW hostR be (l : list str),
    zlen l < 2 ^ 32 -> Forall (fun s => zlen s < 2 ^ 32) l ->
    transports_strict be (to_wire_stra hostW l) (from_wire_stra hostR) l.
Proof.
  intros hW hR be l H F.
  assert (F' : Forall (fun s => zlen s <= 0xffffffff) l).
  { eapply Forall_impl; [|exact F]. cbn. intros; lia. }
  pose proof (zlen_nonneg l).
  exists (enc_size be (zlen l) ++ enc_strs be l). split; [|split].
  - intro pre. unfold to_wire_stra. rewrite to_wire_size_out by lia.
    rewrite to_wire_strs_out by assumption. now rewrite app_assoc.
  - intro rest. unfold from_wire_stra. rewrite <- app_assoc, from_wire_size_in by lia.
    rewrite zlen_to_nat. now apply from_wire_strs_in.
  - intros e1 e2 E N. unfold from_wire_stra.
    destruct (app_prefix_cases _ _ _ _ E) as [(d & H1 & H2 & D)|(d & H1 & H2)].
    + pose proof (prefix_faults_size hR 0 false (zlen l) be e1 d H1 D) as X.
      destruct (from_wire_size hR 0 false (inbuf e1 be)) as [len b1]. cbn [snd] in X.
      apply safe_err; [apply safe_from_wire_strs|exact X].
    + subst e1. rewrite from_wire_size_in by lia. rewrite zlen_to_nat.
      eapply prefix_faults_strs; eassumption.
Qed.
Print Assumptions C03_string_array_roundtrip.
Example C03_arr_ex : transports_strict false (to_wire_stra false [bs "a"; []; bs "bc"]) (from_wire_stra true) [bs "a"; []; bs "bc"].
Proof. apply C03_string_array_roundtrip; [unfold zlen; cbn; lia|]. repeat constructor; unfold zlen; cbn; lia. Qed.

(** ** C04, contiguous buffers (see SegProps.v for sliced ones) *)
Theorem C04_array_roundtrip :
  forall hostW hostR be n (l : list Z),
    zlen l < 2 ^ 32 -> Forall (fun v => 0 <= v < 2 ^ (8 * Z.of_nat n)) l ->
    transports_strict be (to_wire_pod hostW n l) (from_wire_pod hostR n) l.
Proof.
  intros hW hR be n l H F. pose proof (zlen_nonneg l).
  exists (enc_size be (zlen l) ++ enc_elems be n l). split; [|split].
  - intro pre. unfold to_wire_pod. rewrite to_wire_size_out by lia.
    rewrite to_wire_elems_out. now rewrite app_assoc.
  - intro rest. unfold from_wire_pod. rewrite <- app_assoc, from_wire_size_in by lia.
    rewrite zlen_to_nat. now apply from_wire_elems_in.
  - intros e1 e2 E N. unfold from_wire_pod.
    destruct (app_prefix_cases _ _ _ _ E) as [(d & H1 & H2 & D)|(d & H1 & H2)].
    + pose proof (prefix_faults_size hR 0 false (zlen l) be e1 d H1 D) as X.
      destruct (from_wire_size hR 0 false (inbuf e1 be)) as [len b1]. cbn [snd] in X.
      apply safe_err; [apply safe_from_wire_elems|exact X].
    + subst e1. rewrite from_wire_size_in by lia. rewrite zlen_to_nat.
      eapply prefix_faults_elems; eassumption.
Qed.
Print Assumptions C04_array_roundtrip.
Example C04_ex : transports_strict true (to_wire_pod false 2 [1; 515; 65535]) (from_wire_pod false 2) [1; 515; 65535].
Proof. apply C04_array_roundtrip; [unfold zlen; cbn; lia|]. repeat constructor; cbn; lia. Qed.

(** ** C05 *)
(** What is missing: text with an embedded NUL, see [C05_status_nul_refuted]. *)
Theorem C05_status_roundtrip_partial :
  forall hostW hostR be init (s : status),
    0 <= st_code s < 255 ->
    zlen (st_msg s) < 2 ^ 32 -> zlen (st_trace s) < 2 ^ 32 ->
    ~ In 0 (st_msg s) -> ~ In 0 (st_trace s) ->
    transports be (to_wire_status hostW s) (from_wire_status hostR init) s.
Proof.
  intros hW hR be init [c m t] Hc Hm Ht Nm Nt. cbn [st_code st_msg st_trace] in *.
  assert (K : forall s, ~ In 0 s -> c_str s = s).
  { induction s as [|x s IH]; cbn [c_str In]; intro N; auto.
    destruct (Z.eqb_spec x 0); [exfalso; auto|]. f_equal; auto. }
  destruct ((c =? 0) && is_nil m && is_nil t) eqn:E.
  - assert (c = 0 /\ m = [] /\ t = []) as (-> & -> & ->).
    { destruct m, t; cbn in E; try lia. repeat split; lia. }
    exists [255]. split; [reflexivity|]. intro rest. cbn [app]. unfold from_wire_status.
    rewrite rensure1, radvance1. reflexivity.
  - exists ([c] ++ enc_str be m ++ enc_str be t). split.
    + intro pre. unfold to_wire_status. rewrite wensure_out. cbn [negb st_code st_msg st_trace].
      rewrite E, wpush_out. unfold to_wire_cstr. rewrite !K by assumption.
      rewrite !to_wire_str_out by lia. rewrite Z.mod_small by lia.
      rewrite <- !app_assoc. reflexivity.
    + intro rest. cbn [app]. unfold from_wire_status. rewrite rensure1, radvance1. cbn [negb inbuf rd hd].
      replace (c =? 255) with false by lia.
      change (RB ((enc_str be m ++ enc_str be t) ++ rest) be false) with (inbuf ((enc_str be m ++ enc_str be t) ++ rest) be).
      rewrite <- app_assoc, from_wire_str_in by lia. rewrite from_wire_str_in by lia. reflexivity.
Qed.
Print Assumptions C05_status_roundtrip_partial.
Example C05_ex : transports true (to_wire_status false (Status 2 (bs "bad") [])) (from_wire_status false (Status 0 [] [])) (Status 2 (bs "bad") []).
Proof. apply C05_status_roundtrip_partial; unfold zlen; cbn; lia. Qed.

(** A message with an embedded NUL does not arrive as sent. *)
Theorem C05_status_nul_refuted :
  exists s : status,
    0 <= st_code s <= 3 /\
    forall hostW hostR be init,
      ~ transports be (to_wire_status hostW s) (from_wire_status hostR init) s.
Proof.
  exists (Status 2 [97; 0; 98] []). split; [cbn; lia|].
  intros hW hR be init (e & W & R). specialize (W []). specialize (R []).
  assert (E : e = [2; 1; 97; 0]).
  { destruct hW, be; cbv in W; congruence. }
  subst e. destruct hR, be; cbv in R; congruence.
Qed.
Print Assumptions C05_status_nul_refuted.

(** The receiver's verdict: success exactly for the codes Ok (0) and Warn (1). *)
Theorem C05_success_verdict :
  forall hostW hostR be init (s : status),
    0 <= st_code s < 255 ->
    zlen (st_msg s) < 2 ^ 32 -> zlen (st_trace s) < 2 ^ 32 ->
    ~ In 0 (st_msg s) -> ~ In 0 (st_trace s) ->
    exists e r,
      wd (to_wire_status hostW s (outbuf [] be)) = e /\
      from_wire_status hostR init (inbuf e be) = (r, inbuf [] be) /\
      (status_success r = true <-> st_code s = 0 \/ st_code s = 1).
Proof.
  intros hW hR be init s Hc Hm Ht Nm Nt.
  destruct (C05_status_roundtrip_partial hW hR be init s Hc Hm Ht Nm Nt) as (e & W & R).
  exists e, s. split; [rewrite W; reflexivity|]. split.
  - specialize (R []). rewrite app_nil_r in R. exact R.
  - unfold status_success. lia.
Qed.
Print Assumptions C05_success_verdict.
Example C05_success_ex : status_success (Status 1 (bs "minor") []) = true /\ status_success (Status 2 (bs "bad") []) = false.
Proof. split; reflexivity. Qed.

(** ** C06 *)
(** the byte order bit of the flags, for all 128 flag values without it *)
Lemma flags_msb f : 0 <= f < 128 ->
  Z.lor f flag_MSB = f + 128 /\ (Z.land (f + 128) flag_MSB =? 0) = false /\ (Z.land f flag_MSB =? 0) = true.
Proof.
  intro H.
  assert (C : forallb (fun i => let f := Z.of_nat i in
     (Z.lor f flag_MSB =? f + 128) && negb (Z.land (f + 128) flag_MSB =? 0) && (Z.land f flag_MSB =? 0))
     (seq 0 128) = true) by (vm_compute; reflexivity).
  rewrite forallb_forall in C. specialize (C (Z.to_nat f)). rewrite in_seq in C.
  specialize (C ltac:(lia)). cbv zeta in C. rewrite Z2Nat.id in C by lia.
  apply andb_prop in C as [C C3]. apply andb_prop in C as [C1 C2].
  apply Z.eqb_eq in C1. apply negb_true_iff in C2. auto.
Qed.
(** The header is read back, whatever the byte order [be0] the reader assumed
    before, and the reader is switched to the byte order of the writer. *)
Theorem C06_header_roundtrip :
  forall hostW hostR be be0 init cmd flags len pre rest,
    is_byte cmd -> 0 <= flags < 128 -> 0 <= len < 2 ^ 32 ->
    exists e,
      length e = 8%nat /\
      to_wire_header hostW (Header cmd flags 0 len) (outbuf pre be) = outbuf (pre ++ e) be /\
      from_wire_header hostR init (inbuf (e ++ rest) be0)
      = (Header cmd (if be then flags + 128 else flags) 2 len, inbuf rest be).
Proof.
  intros hW hR be be0 init cmd flags len pre rest Hc Hf Hl.
  set (fl := if be then flags + 128 else flags).
  destruct (flags_msb flags Hf) as (F1 & F2 & F3).
  assert (FL : (if be then Z.lor flags flag_MSB else flags) = fl).
  { unfold fl. destruct be; auto. }
  assert (BE : negb (Z.land fl flag_MSB =? 0) = be).
  { unfold fl. destruct be; [rewrite F2|rewrite F3]; reflexivity. }
  exists ([0xca; 2; fl; cmd] ++ enc_u be 4 len). split; [|split].
  - cbn [app length]. now rewrite enc_u_length.
  - unfold to_wire_header. rewrite wensure_out. cbn [negb h_flags h_cmd h_len outbuf wbe].
    rewrite FL. change (WB pre None be false) with (outbuf pre be).
    rewrite wpush_out, to_wire_u_out, <- app_assoc.
    destruct (Z.land flags flag_Server =? 0); reflexivity.
  - cbn [app]. unfold from_wire_header, rensure.
    cbn [inbuf rd rerr nth negb andb].
    rewrite !zlen_cons, zlen_app. unfold zlen at 1. rewrite enc_u_length.
    pose proof (zlen_nonneg rest).
    replace (8 <=? 1 + (1 + (1 + (1 + (Z.of_nat 4 + zlen rest))))) with true by lia.
    cbn [negb orb]. change (0xca =? 0xca) with true. change (2 =? 0) with false. cbn [negb orb].
    rewrite BE. unfold rskip. cbn [rd].
    rewrite !zlen_cons, zlen_app. unfold zlen at 1. rewrite enc_u_length.
    replace (4 <=? 1 + (1 + (1 + (1 + (Z.of_nat 4 + zlen rest))))) with true by lia.
    unfold radvance. cbn [rd rbe rerr]. change (Z.to_nat 4) with 4%nat. cbn [skipn].
    change (RB (enc_u be 4 len ++ rest) be false) with (inbuf (enc_u be 4 len ++ rest) be).
    rewrite from_wire_u_in by (cbn; lia). reflexivity.
Qed.
Print Assumptions C06_header_roundtrip.

(** Exactly the inputs with a correct magic byte, a non zero version and 8
    available bytes are accepted. *)
Theorem C06_header_rejects :
  forall host init be l,
    rerr (snd (from_wire_header host init (inbuf l be))) = false <->
    8 <= zlen l /\ nth 0 l 0 = 0xca /\ nth 1 l 0 <> 0.
Proof.
  intros h init be l. unfold from_wire_header, rensure. cbn [inbuf rd rerr negb andb].
  destruct (Z.leb_spec 8 (zlen l)); cbn [negb orb snd rfault rerr].
  2:{ split; [discriminate|lia]. }
  destruct (Z.eqb_spec (nth 0 l 0) 0xca); cbn [negb orb snd rfault rerr].
  2:{ split; [discriminate|tauto]. }
  destruct (Z.eqb_spec (nth 1 l 0) 0); cbn [negb orb snd rfault rerr].
  { split; [discriminate|tauto]. }
  split; [tauto|intros _].
  unfold rskip. cbn [rd]. replace (4 <=? zlen l) with true by lia.
  unfold from_wire_u, from_wire_mem.
  set (b1 := radvance 4 _).
  assert (X : rensure (Z.of_nat 4) b1 = true).
  { unfold rensure, b1, radvance. cbn [rerr rd negb andb]. change (Z.to_nat 4) with 4%nat.
    unfold zlen in *. rewrite skipn_length. lia. }
  rewrite X. reflexivity.
Qed.
Print Assumptions C06_header_rejects.
Example C06_ex : 8 <= zlen [0xca; 2; 0; 1; 0; 0; 0; 0] /\ nth 0 [0xca; 2; 0; 1; 0; 0; 0; 0] 0 = 0xca.
Proof. unfold zlen; cbn; lia. Qed.

(** ** C07, primitive decoders (types and values: see TypeProps.v, ValueProps.v) *)
Theorem C07_primitive_decoders_safe :
  forall host n count init initstr inits initH initA allow_null,
    safe_decoder (from_wire_u host n init) /\
    safe_decoder (from_wire_s host n init) /\
    safe_decoder (from_wire_size host init allow_null) /\
    safe_decoder (from_wire_sel host init) /\
    safe_decoder (from_wire_str host initstr) /\
    safe_decoder (from_wire_elems host n count) /\
    safe_decoder (from_wire_pod host n) /\
    safe_decoder (from_wire_stra host) /\
    safe_decoder (from_wire_status host inits) /\
    safe_decoder (from_wire_header host initH) /\
    safe_decoder (from_wire_addr initA).
Proof.
  intros. repeat apply conj.
  - apply safe_from_wire_u.
  - apply safe_from_wire_s.
  - apply safe_from_wire_size.
  - apply safe_from_wire_sel.
  - apply safe_from_wire_str.
  - apply safe_from_wire_elems.
  - apply safe_from_wire_pod.
  - apply safe_from_wire_stra.
  - apply safe_from_wire_status.
  - apply safe_from_wire_header.
  - apply safe_from_wire_addr.
Qed.
Print Assumptions C07_primitive_decoders_safe.

(** Skipping over bytes which have not arrived is refused like reading them;
    skipping within the message moves past exactly [n] bytes. *)
Theorem C07_skip_exact :
  forall n (l : list Z) be,
    0 <= n ->
    (n <= zlen l -> exists l', l = firstn (Z.to_nat n) l ++ l' /\ rskip n (inbuf l be) = inbuf l' be) /\
    (zlen l < n -> rerr (rskip n (inbuf l be)) = true).
Proof.
  intros n l be Hn. unfold rskip, inbuf. cbn [rd rerr rbe]. split; intro H.
  - exists (skipn (Z.to_nat n) l). rewrite firstn_skipn. split; [reflexivity|].
    replace (n <=? zlen l) with true by lia. reflexivity.
  - replace (n <=? zlen l) with false by lia. reflexivity.
Qed.
Print Assumptions C07_skip_exact.
Example C07_skip_ex : rskip 2 (inbuf [1; 2; 3] true) = inbuf [3] true /\ rerr (rskip 4 (inbuf [1; 2; 3] true)) = true.
Proof. split; reflexivity. Qed.

(** ** C51 *)
Theorem C51_address_roundtrip :
  forall be junk init a,
    match a with
    | SA_unspec => False
    | SA_in q => length q = 4%nat
    | SA_in6 q => length q = 16%nat /\
        (* not an IPv4 address in disguise: ::ffff:a.b.c.d *)
        ~ (firstn 12 q = repeat 0 10 ++ [0xff; 0xff])
    end ->
    transports be (to_wire_addr junk a) (from_wire_addr init) a.
Proof.
  intros be junk init a H. destruct a as [|q|q]; [contradiction| |].
  - exists (repeat 0 10 ++ [0xff; 0xff] ++ q). split; [reflexivity|].
    intro rest. do 5 (destruct q as [|? q]; try discriminate).
    cbn. unfold from_wire_addr, rensure. cbn [rd rerr inbuf negb andb].
    rewrite !zlen_cons. pose proof (zlen_nonneg rest).
    match goal with |- context[16 <=? ?x] => replace (16 <=? x) with true by lia end.
    reflexivity.
  - destruct H as [L N]. exists q. split; [reflexivity|].
    intro rest. unfold from_wire_addr. rewrite rensure_app by (unfold zlen; lia).
    cbn [negb inbuf rd]. replace 16%nat with (length q) by lia. rewrite firstn_len_app.
    unfold radvance. cbn [rd inbuf rbe rerr]. replace (Z.to_nat 16) with (length q) by lia.
    rewrite skipn_len_app.
    destruct (forallb _ _ && _ && _) eqn:E; [|reflexivity].
    exfalso. apply N. clear N.
    do 17 (destruct q as [|? q]; try discriminate). cbn in E |- *.
    repeat match type of E with _ && _ = true => apply andb_prop in E as [E ?] end.
    repeat match goal with H : _ && _ = true |- _ => apply andb_prop in H as [? ?] end.
    repeat match goal with H : (_ =? _) = true |- _ => apply Z.eqb_eq in H; subst end. reflexivity.
Qed.
Print Assumptions C51_address_roundtrip.
Example C51_ex : transports true (to_wire_addr [] (SA_in [127; 0; 0; 1])) (from_wire_addr SA_unspec) (SA_in [127; 0; 0; 1]).
Proof. apply C51_address_roundtrip. reflexivity. Qed.

(** ** C56: encoders respect a limited buffer *)
Theorem C56_encoders_bounded :
  forall host n v l s ls st hd,
    safe_encoder (to_wire_u host n v) /\
    safe_encoder (to_wire_size host v) /\
    safe_encoder (to_wire_sel host v) /\
    safe_encoder (to_wire_str host s) /\
    safe_encoder (to_wire_pod host n l) /\
    safe_encoder (to_wire_stra host ls) /\
    safe_encoder (to_wire_status host st) /\
    safe_encoder (to_wire_header host hd).
Proof.
  intros. repeat apply conj.
  - apply wsafe_u.
  - apply wsafe_size.
  - apply wsafe_sel.
  - apply wsafe_str.
  - apply wsafe_pod.
  - apply wsafe_stra.
  - apply wsafe_status.
  - apply wsafe_header.
Qed.
Print Assumptions C56_encoders_bounded.
Theorem C56_encoders_complete_when_good :
  forall host n v s hd,
    complete_encoder (to_wire_u host n v) /\
    complete_encoder (to_wire_size host v) /\
    complete_encoder (to_wire_str host s) /\
    complete_encoder (to_wire_header host hd).
Proof.
  intros. repeat apply conj; apply agrees_complete.
  - apply agrees_u.
  - apply agrees_size.
  - apply agrees_str.
  - apply agrees_header.
Qed.
Print Assumptions C56_encoders_complete_when_good.
Example C56_ex :
  let w := to_wire_str false (bs "abc") (WB [] (Some 4) true false) in
  werr w = false /\ wd w = [3; 97; 98; 99] /\ werr (to_wire_str false (bs "abcd") (WB [] (Some 4) true false)) = true.
Proof. cbv. auto. Qed.
