(** Proofs about the bytes of searches, replies and beacons. *)
From Coq Require Import ZArith List Bool Lia ZifyBool ZifyNat.
From Verif Require Import Base BaseProofs WireModel WireSpec WireProofs UdpModel UdpSpec UdpProofs SearchModel SearchSpec SearchProofs.
Import ListNotations.
Local Open Scope Z_scope.

Lemma rep_enc : forall be n v, 0 <= v < 2 ^ (8 * Z.of_nat n) -> represents be n v (enc_u be n v).
Proof.
  intros be n v Hv. split; [apply enc_u_length|]. unfold digits_le, enc_u. rewrite u_cast_id by assumption.
  assert (D : v = fold_right (fun d acc => d + 256 * acc) 0 (le_bytes n v)).
  { rewrite <- (le_val_le_bytes n v Hv) at 1. generalize (le_bytes n v). induction l as [|x l IH]; cbn [le_val fold_right]; congruence. }
  destruct be; rewrite ?rev_involutive; split; auto; apply le_bytes_bytes.
Qed.
Lemma size_enc : forall be n, 0 <= n <= 0xffffffff -> fmt_size be n (enc_size be n).
Proof. intros be n H. unfold enc_size. destruct (Z.ltb_spec n 254); [constructor; lia|]. constructor. apply rep_enc. change (2 ^ (8 * Z.of_nat 4)) with (0xffffffff + 1). lia. Qed.
Lemma str_enc : forall be s, zlen s <= 0xffffffff -> fmt_str be s (enc_str be s).
Proof. intros be s H. unfold enc_str. constructor. apply size_enc. pose proof (zlen_nonneg s). lia. Qed.

(** writing with room left *)
Definition lim (d : list Z) (r : Z) : wbuf := WB d (Some r) true false.
Lemma u_lim : forall host n v d r, Z.of_nat n <= r -> to_wire_u host n v (lim d r) = lim (d ++ enc_u true n v) (r - Z.of_nat n).
Proof.
  intros host n v d r L. unfold to_wire_u, to_wire_mem. assert (X : zlen (mem_of host n (u_cast n v)) = Z.of_nat n) by (unfold zlen, mem_of; destruct host; rewrite ?rev_length, le_bytes_length; reflexivity).
  rewrite X. unfold wensure. cbn [lim werr wroom negb andb]. replace (Z.of_nat n <=? r) with true by lia. cbn [negb].
  unfold wpush, lim. cbn [wd wroom wbe werr]. f_equal; [|f_equal; f_equal; destruct (xorb true host); rewrite ?zlen_rev; auto].
  f_equal. unfold mem_of, enc_u. destruct host; cbn [xorb negb]; rewrite ?rev_involutive; reflexivity.
Qed.
Lemma size_lim : forall host n d r, 0 <= n <= 0xffffffff -> 5 <= r -> to_wire_size host n (lim d r) = lim (d ++ enc_size true n) (r - zlen (enc_size true n)).
Proof.
  intros host n d r H L. unfold to_wire_size. unfold wensure at 1. cbn [lim werr wroom negb andb]. replace (1 <=? r) with true by lia. cbn [negb]. unfold enc_size.
  destruct (n <? 254) eqn:E; [rewrite Z.mod_small by lia; reflexivity|]. replace (n <=? _) with true by lia. change (wpush [254] (lim d r)) with (lim (d ++ [254]) (r - 1)). rewrite u_lim by lia.
  rewrite <- app_assoc. f_equal. rewrite zlen_cons. unfold zlen. rewrite enc_u_length. lia.
Qed.
Lemma str_lim : forall host s d r, zlen s <= 0xffffffff -> zlen s + 5 <= r -> to_wire_str host s (lim d r) = lim (d ++ enc_str true s) (r - zlen (enc_str true s)).
Proof.
  intros host s d r H L. pose proof (zlen_nonneg s). unfold to_wire_str, enc_str. rewrite size_lim by lia.
  assert (X : zlen (enc_size true (zlen s)) <= 5). { unfold enc_size. destruct (_ <? _); [unfold zlen; cbn; lia|]. rewrite zlen_cons. unfold zlen. rewrite enc_u_length. lia. }
  unfold wensure. cbn [lim werr wroom negb andb].
  replace (zlen s <=? _) with true by lia. cbn [negb]. unfold wpush, lim. cbn [wd wroom wbe werr]. rewrite zlen_app, <- app_assoc. f_equal. f_equal. lia.
Qed.

(** ** The search message *)
Definition zero16 : list Z := repeat 0 16.
(** before the count *)
Definition head_bytes (flags port : Z) (protos : list Z) : list Z :=
  enc_u true 4 search_seq ++ [flags] ++ [0; 0; 0] ++ zero16 ++ enc_u true 2 port ++ protos.
Definition tcp_bytes : list Z := [1; 3; 116; 99; 112].
Lemma enc_u_1 : forall be v, 0 <= v < 256 -> enc_u be 1 v = [v].
Proof. intros be v H. apply (rep1 be v). apply rep_enc. exact H. Qed.
Lemma start_eq : forall host port discover, start_msg host port discover =
  lim (repeat 0 8 ++ head_bytes (if discover then 1 else 0) port (if discover then [0] else tcp_bytes)) (if discover then 0x10000 - 35 else 0x10000 - 39).
Proof.
  intros host port discover. unfold start_msg. cbv zeta. change (WB (repeat 0 8) (Some (0x10000 - 8)) true false) with (lim (repeat 0 8) 65528).
  assert (Z1 : forall v, enc_u true 1 0 = [0] /\ enc_u true 2 0 = [0; 0] /\ enc_u true 4 0 = [0; 0; 0; 0] /\ enc_u true 1 v = enc_u true 1 v) by (intros; repeat split).
  destruct (Z1 0) as (E1 & E2 & E4 & _).
  assert (EM : enc_u true 1 (if discover then search_mustreply else 0) = [if discover then 1 else 0]) by (destruct discover; reflexivity).
  rewrite !u_lim by (cbn [Z.of_nat Pos.of_succ_nat Pos.succ]; lia). rewrite E1, E2, E4, EM.
  destruct discover.
  - rewrite ?u_lim by lia. rewrite ?E1. unfold head_bytes. reflexivity.
  - rewrite ?u_lim by lia. unfold to_wire_cstr. change (c_str t_tcp) with t_tcp. rewrite str_lim by (unfold zlen; cbn; lia). unfold head_bytes. reflexivity.
Qed.
(** the names *)
Fixpoint names_bytes (l : list (Z * str)) : list Z :=
  match l with [] => [] | (id, name) :: l' => enc_u true 4 id ++ enc_str true name ++ names_bytes l' end.
Lemma names_bytes_app : forall a b, names_bytes (a ++ b) = names_bytes a ++ names_bytes b.
Proof. induction a as [|[id name] a IH]; intros b; cbn [app names_bytes]; auto. rewrite IH, <- !app_assoc. reflexivity. Qed.
Definition good_w (w : wbuf) : Prop := werr w = false /\ wbe w = true /\ wroom w = Some (0x10000 - zlen (wd w)) /\ zlen (wd w) <= 0x10000.
Lemma entry_good : forall host id name w, good_w w -> werr (to_wire_str host name (to_wire_u host 4 id w)) = false ->
  wd (to_wire_str host name (to_wire_u host 4 id w)) = wd w ++ enc_u true 4 id ++ enc_str true name /\ zlen name <= 0xffffffff /\
  good_w (to_wire_str host name (to_wire_u host 4 id w)).
Proof.
  intros host id name [d r b e] (E & B & R & L) G. cbn [wd wroom wbe werr] in E, B, R, L. subst e b r.
  assert (N : zlen name <= 0xffffffff).
  { destruct (Z.le_gt_cases (zlen name) 0xffffffff); auto. exfalso. unfold to_wire_str in G.
    pose proof (to_wire_size_big host (zlen name) (to_wire_u host 4 id (WB d (Some (65536 - zlen d)) true false)) ltac:(lia)) as X.
    cbv zeta in G. unfold wensure in G. rewrite X in G. cbn [negb andb] in G. discriminate. }
  assert (A : unlimited (to_wire_str host name (to_wire_u host 4 id (WB d (Some (65536 - zlen d)) true false))) = outbuf (d ++ enc_u true 4 id ++ enc_str true name) true).
  { rewrite (agrees_str host name) by auto. rewrite (agrees_u host 4 id) by (apply (wsafe_good _ _ (wsafe_str host name _)); auto).
    change (unlimited (WB d (Some (65536 - zlen d)) true false)) with (outbuf d true). rewrite to_wire_u_out, to_wire_str_out by auto. rewrite <- app_assoc. reflexivity. }
  assert (WD : wd (to_wire_str host name (to_wire_u host 4 id (WB d (Some (65536 - zlen d)) true false))) = d ++ enc_u true 4 id ++ enc_str true name) by (apply (f_equal wd) in A; exact A).
  split; auto. split; auto. destruct (wsafe_trans _ _ _ (wsafe_u host 4 id (WB d (Some (65536 - zlen d)) true false)) (wsafe_str host name _)) as (x & X1 & X2 & X3 & X4 & _).
  split; auto. split; [rewrite X2; reflexivity|]. cbn [wroom wd] in X1, X3, X4. specialize (X4 _ eq_refl ltac:(lia)). split; [rewrite X3, X1, zlen_app; f_equal; lia|rewrite X1, zlen_app; lia].
Qed.
(** every message is within the limit, unless for a single name *)
Definition sized (out : list (Z * str)) (d : list Z) : Prop := zlen d <= maxSearchPayload \/ (length out <= 1)%nat.
Lemma fill_bytes : forall host k poked idx bucket w out c rest w' out' c', good_w w -> sized out (wd w) ->
  fill host k poked idx bucket w out c = (rest, w', out', c') -> werr w' = false ->
  exists new, out' = out ++ new /\ wd w' = wd w ++ names_bytes new /\ good_w w' /\ sized out' (wd w') /\ Forall (fun x => zlen (snd x) <= 0xffffffff) new.
Proof.
  intros host k poked idx. induction bucket as [|id l IH]; intros w out c rest w' out' c' GW SZ E W; cbn [fill] in E.
  { inversion E; subst. exists []. rewrite !app_nil_r. auto. }
  destruct (chans c id) as [x|]; [|eauto]. destruct (ch_searching x); [|eauto]. cbv zeta in E.
  set (w1 := to_wire_str host (ch_name x) (to_wire_u host 4 id w)) in *. destruct (werr w1) eqn:W1.
  { pose proof (fill_err host k poked idx l w1 out c W1) as X. rewrite E in X. cbn in X. congruence. }
  destruct ((maxSearchPayload <? zlen (wd w1)) && negb (is_nil out)) eqn:P.
  { inversion E; subst. exists []. rewrite !app_nil_r. auto. }
  destruct (entry_good host id (ch_name x) w GW W1) as (D1 & N1 & G1).
  assert (SZ1 : sized (out ++ [(id, ch_name x)]) (wd w1)).
  { unfold sized. apply andb_false_iff in P. destruct P as [P|P]; [left; lia|right]. destruct out; [cbn; lia|discriminate]. }
  destruct (IH _ _ _ _ _ _ _ G1 SZ1 E W) as (new & E1 & E2 & E3 & E4 & E5). exists ((id, ch_name x) :: new). split; [rewrite E1, <- app_assoc; reflexivity|].
  split; [rewrite E2, D1; cbn [names_bytes]; rewrite <- !app_assoc; reflexivity|]. split; auto.
Qed.
(** no name is too long: at most 32000 bytes *)
Definition short (c : ctx) : Prop := forall id x, chans c id = Some x -> zlen (ch_name x) <= 32000.
Lemma short_set : forall c id x, short c -> zlen (ch_name x) <= 32000 -> short (set_chan c id (Some x)).
Proof. intros c id x S L i y H. cbn in H. destruct (i =? id); [inversion H; subst; auto|eauto]. Qed.
Lemma enc_size_le : forall n, zlen (enc_size true n) <= 5.
Proof. intros n. unfold enc_size. destruct (_ <? _); [unfold zlen; cbn; lia|]. rewrite zlen_cons. unfold zlen. rewrite enc_u_length. lia. Qed.
Lemma fill_short : forall host k poked idx bucket w out c, good_w w -> (out = [] -> zlen (wd w) <= 50) -> zlen (wd w) <= 32100 -> short c ->
  werr (snd (fst (fst (fill host k poked idx bucket w out c)))) = false.
Proof.
  intros host k poked idx. induction bucket as [|id l IH]; intros w out c GW ON SZ SH; cbn [fill]; [apply GW|].
  destruct (chans c id) as [x|] eqn:CI; [|auto]. destruct (ch_searching x); [|auto]. cbv zeta. pose proof (SH _ _ CI) as LX. pose proof (zlen_nonneg (ch_name x)).
  assert (W1 : to_wire_str host (ch_name x) (to_wire_u host 4 id w) = lim (wd w ++ enc_u true 4 id ++ enc_str true (ch_name x)) (65536 - zlen (wd w) - 4 - zlen (enc_str true (ch_name x)))).
  { destruct w as [d r b e]. destruct GW as (E & B & R & L). cbn [wd wroom wbe werr] in E, B, R, L, SZ |- *. subst. change (WB d (Some (65536 - zlen d)) true false) with (lim d (65536 - zlen d)).
    rewrite u_lim by lia. rewrite str_lim by lia. rewrite <- app_assoc. reflexivity. }
  assert (LE : zlen (enc_str true (ch_name x)) <= 32005) by (unfold enc_str; rewrite zlen_app; pose proof (enc_size_le (zlen (ch_name x))); lia).
  assert (L4 : zlen (enc_u true 4 id) = 4) by (unfold zlen; rewrite enc_u_length; reflexivity).
  destruct (entry_good host id (ch_name x) w GW) as (_ & _ & G1); [rewrite W1; reflexivity|].
  replace (werr (to_wire_str host (ch_name x) (to_wire_u host 4 id w))) with false by (rewrite W1; reflexivity).
  destruct (_ && _) eqn:P; [apply GW|]. apply IH; auto.
  - destruct out; discriminate.
  - apply andb_false_iff in P. destruct P as [P|P]; [unfold maxSearchPayload in P; lia|]. destruct out; [|discriminate]. rewrite W1. cbn [lim wd]. rewrite !zlen_app. specialize (ON eq_refl). lia.
  - intros i y Y. cbn in Y. destruct (i =? id); [inversion Y; subst; auto|eapply SH; eauto].
Qed.
Lemma start_good : forall host port discover, good_w (wpush [0; 0] (start_msg host port discover)).
Proof.
  intros host port discover. rewrite start_eq. unfold lim, wpush, good_w. cbn [wd wroom wbe werr].
  assert (L : zlen ((repeat 0 8 ++ head_bytes (if discover then 1 else 0) port (if discover then [0] else tcp_bytes)) ++ [0; 0]) = if discover then 37 else 41).
  { unfold head_bytes. rewrite !zlen_app. unfold zlen. rewrite !enc_u_length. destruct discover; reflexivity. }
  rewrite L. change (zlen [0; 0]) with 2. split; auto. split; auto. split; [destruct discover; reflexivity|destruct discover; lia].
Qed.
Lemma start_zlen : forall host port, zlen (wd (wpush [0; 0] (start_msg host port false))) = 41.
Proof. intros. rewrite start_eq. unfold wpush, lim. cbn [wd]. unfold head_bytes. rewrite !zlen_app. unfold zlen. rewrite !enc_u_length. reflexivity. Qed.
Lemma similar_short : forall c c', similar c c' -> short c -> short c'.
Proof. intros c c' H S id y E. specialize (H id). rewrite E in H. destruct (chans c id) as [x|] eqn:X; [|tauto]. destruct H as (<- & _). eauto. Qed.
Lemma send_short : forall f host port k poked idx bucket c, buckets c <> [] -> short c -> send_all f host port k poked idx bucket c <> None.
Proof.
  induction f as [|f IH]; intros host port k poked idx bucket c NB SH; cbn [send_all]; [discriminate|]. destruct bucket as [|id l]; [discriminate|].
  set (bucket := id :: l). clearbody bucket.
  pose proof (fill_short host k poked idx bucket (wpush [0; 0] (start_msg host port false)) [] c (start_good _ _ _)) as W. rewrite start_zlen in W. specialize (W ltac:(lia) ltac:(lia) SH).
  destruct (fill host k poked idx bucket (wpush [0; 0] (start_msg host port false)) [] c) as [[[rest w] out] c1] eqn:EF. cbn [fst snd] in W. rewrite W.
  destruct (fill_spec _ _ _ _ _ _ _ _ _ _ _ _ NB EF W) as [(A & _) B _ _ _ _].
  destruct (is_nil out); [discriminate|]. pose proof (IH host port k poked idx rest c1) as X. destruct (send_all f host port k poked idx rest c1) as [(ps, c2)|]; [discriminate|].
  intros _. apply X; auto. { intros Z. rewrite Z in A. destruct (buckets c); [congruence|discriminate]. } eapply similar_short; eauto.
Qed.

(** ** Complete messages *)
Lemma patch_mid : forall a l m b, length m = length l -> patch (length a) l (a ++ m ++ b) = a ++ l ++ b.
Proof.
  intros a l m b E. unfold patch. rewrite firstn_app, Nat.sub_diag, firstn_all, firstn_O, app_nil_r. f_equal. f_equal.
  rewrite skipn_app, skipn_all2 by lia. cbn [app]. replace (length a + length l - length a)%nat with (length m) by lia. rewrite skipn_app, skipn_all, Nat.sub_diag. reflexivity.
Qed.
Definition header_bytes (cmd fl len : Z) : list Z := [202; 2; Z.lor fl 128; cmd] ++ enc_u true 4 len.
Lemma header_lim : forall host cmd fl len, wd (to_wire_header host (Header cmd fl 0 len) (WB [] (Some 8) true false)) = header_bytes cmd fl len.
Proof.
  intros host cmd fl len. unfold to_wire_header. change (wensure 8 (WB [] (Some 8) true false)) with true. cbn [negb h_flags h_len h_cmd wbe]. cbv zeta.
  change (wpush ?l (WB [] (Some 8) true false)) with (lim l 4). rewrite u_lim by lia. unfold header_bytes, flag_MSB. destruct (negb _); reflexivity.
Qed.
Lemma header_len : forall cmd fl len, length (header_bytes cmd fl len) = 8%nat.
Proof. intros. unfold header_bytes. rewrite app_length, enc_u_length. reflexivity. Qed.
Definition search_bytes (flags port : Z) (protos : list Z) (out : list (Z * str)) : list Z :=
  let body := head_bytes flags port protos ++ enc_u true 2 (zlen out) ++ names_bytes out in header_bytes cmd_search 0 (zlen body) ++ body.
Lemma head_len : forall flags port protos, length (head_bytes flags port protos) = (26 + length protos)%nat.
Proof. intros. unfold head_bytes. rewrite !app_length, !enc_u_length. reflexivity. Qed.
Lemma finish_eq : forall host out w flags port protos, wd w = repeat 0 8 ++ head_bytes flags port protos ++ [0; 0] ++ names_bytes out ->
  finish host (34 + length protos) out w = Packet out (search_bytes flags port protos out).
Proof.
  intros host out w flags port protos E. unfold finish. cbv zeta. rewrite header_lim. change (WB [] (Some 2) true false) with (lim [] 2). rewrite u_lim by lia. cbn [lim wd app].
  f_equal. rewrite E. replace (34 + length protos)%nat with (length (repeat 0 8 ++ head_bytes flags port protos)) by (rewrite app_length, head_len, repeat_length; lia).
  rewrite !app_assoc. rewrite <- (app_assoc _ [0; 0]). rewrite patch_mid by (rewrite enc_u_length; reflexivity). rewrite <- !app_assoc.
  set (body := head_bytes flags port protos ++ enc_u true 2 (zlen out) ++ names_bytes out). replace (zlen (repeat 0 8 ++ body) - 8) with (zlen body) by (rewrite zlen_app; change (zlen (repeat 0 8)) with 8; lia).
  change (repeat 0 8 ++ body) with ([] ++ repeat 0 8 ++ body). change 0%nat with (@length Z []) at 1. rewrite patch_mid by (rewrite header_len; reflexivity). reflexivity.
Qed.
Lemma search_bytes_len : forall flags port protos out, zlen (search_bytes flags port protos out) = zlen (repeat 0 8 ++ head_bytes flags port protos ++ [0; 0] ++ names_bytes out).
Proof.
  intros. unfold search_bytes. cbv zeta. rewrite !zlen_app. replace (zlen (header_bytes _ _ _)) with 8 by (unfold zlen; rewrite header_len; reflexivity).
  replace (zlen (enc_u true 2 _)) with 2 by (unfold zlen; rewrite enc_u_length; reflexivity). reflexivity.
Qed.
Lemma unicast_eq : forall flags port protos out, for_unicast (search_bytes flags port protos out) = search_bytes (Z.lor flags 128) port protos out.
Proof.
  intros. unfold search_bytes, head_bytes. cbv zeta.
  assert (L : forall fl, zlen ((enc_u true 4 search_seq ++ [fl] ++ [0; 0; 0] ++ zero16 ++ enc_u true 2 port ++ protos) ++ enc_u true 2 (zlen out) ++ names_bytes out) =
              zlen ((enc_u true 4 search_seq ++ [flags] ++ [0; 0; 0] ++ zero16 ++ enc_u true 2 port ++ protos) ++ enc_u true 2 (zlen out) ++ names_bytes out)) by (intros; rewrite !zlen_app; reflexivity).
  rewrite (L (Z.lor flags 128)). generalize (zlen ((enc_u true 4 search_seq ++ [flags] ++ [0; 0; 0] ++ zero16 ++ enc_u true 2 port ++ protos) ++ enc_u true 2 (zlen out) ++ names_bytes out)). intros n. clear L.
  set (tl := [0; 0; 0] ++ zero16 ++ enc_u true 2 port ++ protos). rewrite <- !app_assoc. rewrite !(app_assoc (header_bytes _ _ _)). set (h := header_bytes cmd_search 0 n ++ enc_u true 4 search_seq).
  assert (LH : length h = 12%nat) by (unfold h; rewrite app_length, header_len, enc_u_length; reflexivity).
  unfold for_unicast. rewrite app_nth2 by lia. rewrite LH, Nat.sub_diag. cbn [nth app]. change (flags :: ?l) with ([flags] ++ l). replace 12%nat with (length h). rewrite patch_mid by reflexivity. reflexivity.
Qed.
Lemma tcp_eq : forall flags port protos out, for_tcp (search_bytes flags port protos out) = search_bytes (Z.lor flags 128) 0 protos out.
Proof.
  intros. unfold for_tcp. rewrite unicast_eq. generalize (Z.lor flags 128). intros fl. unfold search_bytes, head_bytes. cbv zeta.
  assert (L : forall port0, zlen ((enc_u true 4 search_seq ++ [fl] ++ [0; 0; 0] ++ zero16 ++ enc_u true 2 port0 ++ protos) ++ enc_u true 2 (zlen out) ++ names_bytes out) =
              zlen ((enc_u true 4 search_seq ++ [fl] ++ [0; 0; 0] ++ zero16 ++ enc_u true 2 0 ++ protos) ++ enc_u true 2 (zlen out) ++ names_bytes out)) by (intros; rewrite !zlen_app; unfold zlen; rewrite !enc_u_length; reflexivity).
  rewrite (L port). generalize (zlen ((enc_u true 4 search_seq ++ [fl] ++ [0; 0; 0] ++ zero16 ++ enc_u true 2 0 ++ protos) ++ enc_u true 2 (zlen out) ++ names_bytes out)). intros n. clear L.
  rewrite <- !app_assoc. rewrite !(app_assoc (header_bytes _ _ _)). rewrite !(app_assoc _ [fl]), !(app_assoc _ [0; 0; 0]), !(app_assoc _ zero16).
  set (h := (((header_bytes cmd_search 0 n ++ enc_u true 4 search_seq) ++ [fl]) ++ [0; 0; 0]) ++ zero16).
  assert (LH : length h = 32%nat) by (unfold h; rewrite !app_length, header_len, enc_u_length; reflexivity).
  replace 32%nat with (length h). rewrite patch_mid by (rewrite enc_u_length; reflexivity). reflexivity.
Qed.
(** they are searches *)
Lemma names_enc : forall out, Forall (fun x => 0 <= fst x < 2 ^ 32 /\ zlen (snd x) <= 0xffffffff) out -> fmt_names true (map (fun x => (snd x, fst x)) out) (names_bytes out).
Proof.
  induction 1 as [|[id name] out (A & B) _ IH]; cbn [map names_bytes fst snd] in *; [constructor|]. unfold enc_str. rewrite <- app_assoc. constructor; auto.
  - apply rep_enc. exact A.
  - apply size_enc. pose proof (zlen_nonneg name). lia.
Qed.
Lemma byte_testbit : Z.testbit 128 7 = true. Proof. reflexivity. Qed.
Lemma search_is : forall flags port protos e out, 0 <= port < 2 ^ 16 -> zlen (search_bytes flags port ([zlen protos] ++ e) out) <= 0x10000 -> zlen protos < 254 -> fmt_strs true protos e ->
  Forall (fun x => 0 <= fst x < 2 ^ 32 /\ zlen (snd x) <= 0xffffffff) out -> zlen out < 65536 ->
  is_search flags port protos out (search_bytes flags port ([zlen protos] ++ e) out).
Proof.
  intros flags port protos e out P L LP FE F N. unfold search_bytes in *. cbv zeta in *. set (body := head_bytes flags port ([zlen protos] ++ e) ++ enc_u true 2 (zlen out) ++ names_bytes out) in *.
  exists body. pose proof (zlen_nonneg body). pose proof (zlen_nonneg protos). assert (BL : zlen body < 2 ^ 32) by (rewrite zlen_app in L; unfold zlen at 1 in L; rewrite header_len in L; change (2 ^ 32) with 4294967296; lia). split.
  - exists 128, (enc_u true 4 (zlen body)). unfold header_bytes. change (Z.lor 0 128) with 128. rewrite <- app_assoc. split; [reflexivity|]. do 3 (split; [discriminate || reflexivity|]). split; [reflexivity|].
    split; [apply rep_enc; auto|lia].
  - exists (enc_u true 4 search_seq), [0; 0; 0], zero16, (enc_u true 2 port), [zlen protos], e, (enc_u true 2 (zlen out)), (names_bytes out), []. cbn [f_id f_flags f_addr f_port f_protos f_names].
    split; [unfold body, head_bytes; rewrite app_nil_r, <- !app_assoc; reflexivity|]. split; [apply rep_enc; split; [discriminate|reflexivity]|]. split; [reflexivity|].
    split; [constructor; [reflexivity|discriminate]|]. split; [apply rep_enc; exact P|]. split; [constructor; lia|]. split; [auto|].
    split; [|apply names_enc; auto]. replace (zlen (map _ out)) with (zlen out) by (unfold zlen; rewrite map_length; reflexivity). apply rep_enc. pose proof (zlen_nonneg out). exact (conj H1 N).
Qed.

Record packet_ok (port : Z) (p : packet) : Prop := {
  P_bytes : p_bytes p = search_bytes 0 port tcp_bytes (p_entries p);
  P_some : p_entries p <> [];
  P_size : zlen (p_bytes p) <= maxSearchPayload \/ length (p_entries p) = 1%nat;
  P_max : zlen (p_bytes p) <= 0x10000;
  P_names : Forall (fun x => zlen (snd x) <= 0xffffffff) (p_entries p)
}.
Lemma send_bytes : forall f host port k poked idx bucket c ps c', send_all f host port k poked idx bucket c = Some (ps, c') -> Forall (packet_ok port) ps.
Proof.
  induction f as [|f IH]; intros host port k poked idx bucket c ps c' E; cbn [send_all] in E; [sp E; constructor|]. destruct bucket as [|id l]; [sp E; constructor|]. cbv zeta in E.
  set (bucket := id :: l) in *. clearbody bucket. clear id l.
  destruct (fill host k poked idx bucket (wpush [0; 0] (start_msg host port false)) [] c) as [[[rest w] out] c1] eqn:EF. destruct (werr w) eqn:W; [discriminate|].
  assert (SZ0 : sized [] (wd (wpush [0; 0] (start_msg host port false)))) by (right; cbn; lia).
  destruct (fill_bytes _ _ _ _ _ _ _ _ _ _ _ _ (start_good host port false) SZ0 EF W) as (new & E1 & E2 & (G1 & G2 & G3 & G4) & SZ & F). cbn [app] in E1. subst new.
  destruct (is_nil out) eqn:N; [sp E; constructor|]. destruct (send_all f host port k poked idx rest c1) as [(ps2, c2)|] eqn:E3; [|discriminate]. apply some_pair in E. destruct E as (<- & <-).
  constructor; [|eauto]. assert (WD : wd w = repeat 0 8 ++ head_bytes 0 port tcp_bytes ++ [0; 0] ++ names_bytes out) by (rewrite E2, start_eq; unfold wpush, lim; cbn [wd]; rewrite <- !app_assoc; reflexivity).
  assert (PC : length (wd (start_msg host port false)) = (34 + length tcp_bytes)%nat) by (rewrite start_eq; unfold lim; cbn [wd]; rewrite app_length, head_len; reflexivity).
  rewrite PC, (finish_eq host out w 0 port tcp_bytes WD). constructor; cbn [p_bytes p_entries].
  - reflexivity.
  - intros ->; discriminate.
  - rewrite search_bytes_len, <- WD. destruct SZ as [SZ|SZ]; [auto|right]. clear - SZ N. destruct out as [|? [|]]; [discriminate|reflexivity|cbn in SZ; lia].
  - rewrite search_bytes_len, <- WD. auto.
  - auto.
Qed.
