(** Proofs about answers to searches. *)
From Coq Require Import ZArith List Bool Lia ZifyBool ZifyNat.
From Verif Require Import Base BaseProofs WireModel WireSpec WireProofs UdpModel UdpSpec UdpProofs SearchModel SearchSpec SearchProofs SearchWire.
Import ListNotations.
Local Open Scope Z_scope.

(** ** Who claims what *)
Lemma or_nth : forall a b j, length a = length b ->
  (nth_error (map (fun p : bool * bool => fst p || snd p) (combine a b)) j = Some true <-> nth_error a j = Some true \/ nth_error b j = Some true).
Proof.
  induction a as [|x a IH]; intros [|y b] j L; try discriminate; [destruct j; cbn; split; [discriminate|intros [H|H]; discriminate|discriminate|intros [H|H]; discriminate]|].
  destruct j as [|j]; cbn [combine map nth_error fst snd]; [|apply IH; cbn in L; lia]. destruct x, y; cbn; split; try (intros [H|H]); auto; discriminate.
Qed.
Lemma or_len : forall a b, length a = length b -> length (map (fun p : bool * bool => fst p || snd p) (combine a b)) = length a.
Proof. intros. rewrite map_length, combine_length. lia. Qed.
Lemma ask_spec : forall sources names claims, Forall answers sources -> length claims = length names ->
  length (ask sources names claims) = length names /\
  forall j, nth_error (ask sources names claims) j = Some true <-> nth_error claims j = Some true \/ exists s, In s sources /\ nth_error (s names) j = Some true.
Proof.
  induction sources as [|s l IH]; intros names claims F L; cbn [ask]; [split; auto; intros j; split; auto; intros [H|(s & [] & _)]; auto|].
  inversion F; subst. assert (LS : length claims = length (s names)) by (rewrite H1; auto). destruct (IH names (map (fun p => fst p || snd p) (combine claims (s names))) H2) as (A & B); [rewrite or_len; auto|]. split; auto.
  intros j. rewrite B, or_nth by auto. split.
  - intros [[H|H]|(x & X & H)]; auto; right; [exists s|exists x]; cbn; auto.
  - intros [H|(x & [<-|X] & H)]; auto. right; eauto.
Qed.
Lemma claimed_ids_in : forall names claims id, In id (claimed_ids names claims) <-> exists j name, nth_error names j = Some (name, id) /\ nth_error claims j = Some true.
Proof.
  induction names as [|[name i] l IH]; intros claims id; cbn [claimed_ids]; [split; [intros []|intros (j & n & H & _); destruct j; discriminate]|].
  destruct claims as [|c cl]; [split; [intros []|intros (j & n & _ & H); destruct j; discriminate]|].
  assert (X : (exists j n, nth_error ((name, i) :: l) j = Some (n, id) /\ nth_error (c :: cl) j = Some true) <-> (i = id /\ c = true) \/ In id (claimed_ids l cl)).
  { rewrite IH. split.
    - intros ([|j] & n & A & B); cbn in A, B; [inversion A; inversion B; subst; auto|right; eauto].
    - intros [(-> & ->)|(j & n & A & B)]; [exists O, name; auto|exists (S j), n; auto]. }
  rewrite X. destruct c; cbn [In]; intuition congruence.
Qed.
Lemma claims_spec : forall sources l id, Forall answers sources ->
  (In id (claimed_ids l (ask sources (map fst l) (map (fun _ => false) (map fst l)))) <-> claimed sources l id).
Proof.
  intros sources l id F. rewrite claimed_ids_in. destruct (ask_spec sources (map fst l) (map (fun _ => false) (map fst l)) F) as (A & B); [rewrite map_length; auto|]. split.
  - intros (j & name & N & C). apply B in C. destruct C as [C|(s & S & C)]; [|exists j, name, s; auto]. exfalso. revert j N C. generalize (map fst l) as m. intros m j _. revert j. induction m as [|y m IHm]; intros [|j]; cbn; try discriminate. exact (IHm j).
  - intros (j & name & s & N & S & C). exists j, name. split; auto. apply B. right; eauto.
Qed.
Lemma claimed_ids_sub : forall names claims, (length (claimed_ids names claims) <= length names)%nat /\ forall id, In id (claimed_ids names claims) -> In id (map snd names).
Proof.
  induction names as [|[n i] l IH]; intros [|c cl]; cbn [claimed_ids length map snd]; try (split; [lia|intros ? []]). destruct (IH cl) as (A & B). destruct c; cbn [length In]; split; try lia; intros id; [intros [H|H]; auto|auto].
Qed.

(** ** Writing the reply *)
Lemma mem_out : forall d b be, to_wire_mem b false (outbuf d be) = outbuf (d ++ b) be.
Proof. reflexivity. Qed.
Lemma any_out : forall d be, to_wire_addr [] any4 (outbuf d be) = outbuf (d ++ v4_prefix ++ [0; 0; 0; 0]) be.
Proof. reflexivity. Qed.
Fixpoint ids_bytes (be : bool) (l : list Z) : list Z := match l with [] => [] | id :: l' => enc_u be 4 id ++ ids_bytes be l' end.
Lemma ids_out : forall host be l d, to_wire_ids host l (outbuf d be) = outbuf (d ++ ids_bytes be l) be.
Proof. induction l as [|id l IH]; intros d; cbn [to_wire_ids ids_bytes]; [rewrite app_nil_r; auto|]. rewrite to_wire_u_out, IH, <- app_assoc. reflexivity. Qed.
Lemma ids_enc : forall be l, Forall (fun id => 0 <= id < 2 ^ 32) l -> fmt_ids be l (ids_bytes be l).
Proof. induction 1; cbn [ids_bytes]; constructor; auto. apply rep_enc. exact H. Qed.
Definition reply_bytes (be : bool) (guid : list Z) (id port : Z) (ids : list Z) : list Z :=
  guid ++ enc_u be 4 id ++ (v4_prefix ++ [0; 0; 0; 0]) ++ enc_u be 2 port ++ (3 :: t_tcp) ++ [if is_nil ids then 0 else 1] ++ enc_u be 2 (zlen ids) ++ ids_bytes be ids.
Lemma reply_out : forall host guid id port ids d be, reply_body host guid id port ids (outbuf d be) = outbuf (d ++ reply_bytes be guid id port ids) be.
Proof.
  intros. unfold reply_body, to_wire_cstr. change (c_str t_tcp) with t_tcp. cbv zeta. rewrite mem_out, to_wire_u_out, any_out, to_wire_u_out, to_wire_str_out, !to_wire_u_out, ids_out by (unfold zlen; cbn; lia).
  f_equal. unfold reply_bytes. assert (E1 : enc_u be 1 (if is_nil ids then 0 else 1) = [if is_nil ids then 0 else 1]) by (apply enc_u_1; destruct (is_nil ids); lia). rewrite E1.
  change (enc_str be t_tcp) with (3 :: t_tcp). rewrite <- !app_assoc. reflexivity.
Qed.
Lemma reply_is : forall be guid id port ids, length guid = 12%nat -> 0 <= id < 2 ^ 32 -> 0 <= port < 2 ^ 16 -> Forall (fun id => 0 <= id < 2 ^ 32) ids -> zlen ids < 65536 ->
  response_body be guid id any4 port tcp (if is_nil ids then 0 else 1) ids (reply_bytes be guid id port ids).
Proof.
  intros be guid id port ids LG RI RP F N. exists (enc_u be 4 id), (v4_prefix ++ [0; 0; 0; 0]), (enc_u be 2 port), (3 :: t_tcp), (enc_u be 2 (zlen ids)), (ids_bytes be ids), [].
  rewrite app_nil_r. split; [reflexivity|]. split; auto. split; [apply rep_enc; exact RI|]. split; [constructor; reflexivity|]. split; [apply rep_enc; exact RP|].
  split; [change (3 :: t_tcp) with ([zlen tcp] ++ tcp); constructor; constructor; unfold zlen; cbn; lia|]. split; [|apply ids_enc; auto]. apply rep_enc. pose proof (zlen_nonneg ids). exact (conj H N).
Qed.
Lemma server_reply : forall host guid port sources s, length guid = 12%nat -> 0 <= s_id s < 2 ^ 32 -> 0 <= port < 2 ^ 16 -> Forall (fun x => 0 <= snd x < 2 ^ 32) (s_names s) -> zlen (s_names s) < 65536 ->
  let ids := claimed_ids (s_names s) (ask sources (map fst (s_names s)) (map (fun _ => false) (map fst (s_names s)))) in
  if is_nil ids && negb (s_mustreply s) then server_search host false guid port sources s = None
  else exists d body, server_search host false guid port sources s = Some d /\ message_len 2 true cmd_search_response (zlen body) body d /\
         response_body true guid (s_id s) any4 port tcp (if is_nil ids then 0 else 1) ids body.
Proof.
  intros host guid port sources s LG RI RP F N ids. unfold server_search. cbv zeta. fold ids. destruct (is_nil ids && negb (s_mustreply s)); auto.
  change (WB (repeat 0 8) None true false) with (outbuf (repeat 0 8) true). rewrite reply_out. cbn [outbuf wd]. rewrite header_lim. set (body := reply_bytes true guid (s_id s) port ids).
  replace (zlen (repeat 0 8 ++ body) - 8) with (zlen body) by (rewrite zlen_app; change (zlen (repeat 0 8)) with 8; lia).
  change (repeat 0 8 ++ body) with ([] ++ repeat 0 8 ++ body). change 0%nat with (@length Z []) at 1. rewrite patch_mid by (rewrite header_len; reflexivity). cbn [app].
  destruct (claimed_ids_sub (s_names s) (ask sources (map fst (s_names s)) (map (fun _ => false) (map fst (s_names s))))) as (A & B). fold ids in A, B.
  assert (FI : Forall (fun id => 0 <= id < 2 ^ 32) ids). { apply Forall_forall. intros id I. apply B in I. apply in_map_iff in I. destruct I as (x & <- & I). rewrite Forall_forall in F. auto. }
  assert (NI : zlen ids < 65536) by (unfold zlen in *; lia).
  exists (header_bytes cmd_search_response flag_Server (zlen body) ++ body), body. split; [reflexivity|]. split; [|apply reply_is; auto].
  assert (BL : zlen body < 2 ^ 32).
  { unfold body, reply_bytes. rewrite !zlen_app. assert (LI : zlen (ids_bytes true ids) = 4 * zlen ids). { clear. induction ids as [|i l IH]; [reflexivity|]. cbn [ids_bytes]. rewrite zlen_app, zlen_cons, IH. unfold zlen at 1. rewrite enc_u_length. lia. }
    rewrite LI. assert (LU : forall n v, zlen (enc_u true n v) = Z.of_nat n) by (intros; unfold zlen; rewrite enc_u_length; reflexivity). rewrite !LU.
    replace (zlen guid) with 12 by (unfold zlen; rewrite LG; reflexivity). change (zlen v4_prefix) with 12. change (zlen [0; 0; 0; 0]) with 4. change (zlen (3 :: t_tcp)) with 4.
    change (zlen [if is_nil ids then 0 else 1]) with 1. change (2 ^ 32) with 4294967296. lia. }
  pose proof (zlen_nonneg body). exists (Z.lor flag_Server 128), (enc_u true 4 (zlen body)). split; [unfold header_bytes; rewrite <- app_assoc; reflexivity|]. split; [discriminate|]. split; [reflexivity|]. split; [reflexivity|]. split; [reflexivity|].
  split; [apply rep_enc; split; auto|lia].
Qed.

(** ** Reading it *)
Lemma header_dec : forall host i version be cmd len body d, is_bytes d -> message_len version be cmd len body d ->
  exists fl, from_wire_header host i (RB d true false) = (Header cmd fl version len, inbuf body be) /\ negb (Z.land fl (Z.lor flag_Control flag_SegMask) =? 0) = false /\ len <= zlen body.
Proof.
  intros host i version be cmd len body d B (fl & e & -> & V & F1 & F2 & BE & R & L). exists fl.
  assert (FB : 0 <= fl < 256) by (apply is_bytes_app in B; destruct B as (B & _); inversion B; subst; inversion H2; subst; inversion H4; auto).
  split; [|split; auto; apply no_flags; auto]. unfold from_wire_header. cbn [app rd nth]. assert (E8 : rensure 8 (RB (202 :: version :: fl :: cmd :: e ++ body) true false) = true).
  { unfold rensure. cbn [rerr rd negb andb]. rewrite !zlen_cons, zlen_app. pose proof (zlen_nonneg body). unfold zlen at 1. rewrite (rep_len _ _ _ _ R). lia. }
  rewrite E8. replace (version =? 0) with false by lia. cbn [negb orb]. change (202 =? 202) with true. cbn [negb orb rerr]. unfold flag_MSB. rewrite bit7 by auto. rewrite <- BE.
  change (202 :: version :: fl :: cmd :: e ++ body) with ([202; version; fl; cmd] ++ e ++ body). change (RB ?l be false) with (inbuf l be). rewrite skip_dec by reflexivity. rewrite (u_dec host 4 _ be len e body R). reflexivity.
Qed.
Lemma ids_dec : forall host be ids e, fmt_ids be ids e -> forall l, reply_ids host (length ids) (inbuf (e ++ l) be) = (ids, inbuf l be).
Proof.
  intros host be ids e F. induction F as [|id ids e e' R F IH]; intros l; cbn [length reply_ids]; auto. rewrite <- app_assoc, (u_dec host 4 0 be id e _ R). cbn [rgood inbuf rerr negb]. change (rgood (inbuf (e' ++ l) be)) with true. rewrite IH. reflexivity.
Qed.
Lemma reply_dec : forall host istcp discovering ignore src sport version be guid id a port proto found ids body,
  is_unspec src = false -> 0 <= found < 256 -> response_body be guid id a port proto found ids body ->
  proc_reply host istcp discovering ignore src sport version (inbuf body be) =
  if existsb (str_eqb guid) ignore then RDone None true
  else
    let serv := if is_any a then src else a in
    let p := if istcp && (port =? 0) then sport else port in
    let bc := if negb istcp && (id =? find_seq) && (zlen ids =? 0) && (found =? 0) && discovering
              then Some {| b_version := version; b_guid := guid; b_server := serv; b_port := p; b_proto := proto |} else None in
    RDone (Some (Reply bc guid serv p (if (found =? 0) || negb (str_eqb proto tcp) then [] else ids))) true.
Proof.
  intros host istcp discovering ignore src sport version be guid id a port proto found ids body US FR (e1 & e2 & e3 & e4 & e5 & e6 & more & -> & LG & R1 & FA & R3 & FP & R5 & FI).
  unfold proc_reply. rewrite (from_wire_mem_in 12 false guid _ be LG). rewrite (u_dec host 4 0 be id e1 _ R1). rewrite (addr_dec SA_unspec be a e2 _ FA). rewrite (u_dec host 2 0 be port e3 _ R3).
  cbv zeta. assert (UA : is_unspec (if is_any a then src else a) = false) by (destruct (is_any a); auto; eapply fmt_addr_spec; eauto). rewrite UA.
  rewrite (str_dec host [] be proto e4 _ FP). rewrite (u_dec host 1 0 be found [found] _ (rep1_is be found FR)). rewrite (u_dec host 2 0 be _ e5 _ R5). change (rgood (inbuf (e6 ++ more) be)) with true. cbn [andb].
  destruct (existsb (str_eqb guid) ignore); auto. change search_seq with find_seq. change t_tcp with tcp. destruct (_ || _) eqn:E; auto.
  unfold zlen at 1. rewrite Nat2Z.id. rewrite (ids_dec host be ids e6 FI more). reflexivity.
Qed.
Lemma found_spec : forall ids c id, NoDup ids -> (In id (found_events c ids) <-> In id ids /\ exists name n, chans c id = Some (Chan name true n)).
Proof.
  induction ids as [|i l IH]; intros c id ND; cbn [found_events]; [split; [intros []|intros ([] & _)]|]. inversion ND; subst.
  destruct (chans c i) as [[name s n]|] eqn:CI; cbn [ch_searching ch_name ch_nsearch].
  - destruct s; cbn [In]; rewrite IH by auto.
    + split.
      * intros [<-|(A & nm & m & B)]; [split; eauto|]. cbn in B. destruct (Z.eqb_spec id i); [congruence|]. split; eauto.
      * intros ([<-|A] & nm & m & B); auto. right. split; auto. exists nm, m. cbn. destruct (Z.eqb_spec id i); [congruence|auto].
    + split; [intros (A & B); auto|]. intros ([<-|A] & nm & m & B); [congruence|eauto].
  - rewrite IH by auto. split; [intros (A & B); split; auto; right; auto|]. intros ([<-|A] & nm & m & B); [congruence|eauto].
Qed.

(** ** A search through a connection *)
Lemma tcp_protos_dec : forall host be ps e, fmt_strs be ps e -> ~ In tcp (removelast ps) -> forall l, tcp_protos host (length ps) (inbuf (e ++ l) be) = inbuf l be.
Proof.
  intros host be ps e F. induction F as [|s ps e e' S F IH]; intros NI l; cbn [length tcp_protos]; auto. change (rgood (inbuf ((e ++ e') ++ l) be)) with true. cbv iota.
  rewrite <- app_assoc, (str_dec host [] be s e _ S). change t_tcp with tcp. destruct ps as [|s2 ps2].
  - inversion F; subst. cbn [length tcp_protos app]. destruct (str_eqb s tcp); reflexivity.
  - cbn [removelast In] in NI. destruct (str_eqb s tcp) eqn:E; [apply str_eqb_eq in E; subst s; elim NI; left; reflexivity|]. apply IH. intros X. apply NI. right. exact X.
Qed.
Lemma tcp_names_dec : forall host be ns e, fmt_names be ns e -> forall l, tcp_names host (length ns) (inbuf (e ++ l) be) = (map (fun x => (c_str (fst x), snd x)) ns, inbuf l be).
Proof.
  intros host be ns e F. induction F as [|s id ns e1 e2 e' R S F IH]; intros l; cbn [length tcp_names map fst snd]; auto. rewrite <- !app_assoc, (u_dec host 4 0 be id e1 _ R).
  rewrite (app_assoc e2 s), (str_dec host [] be s (e2 ++ s) _ (str_bytes be s e2 S)). rewrite IH. reflexivity.
Qed.
Lemma tcp_dec : forall host be be' guid port sources f body, is_bytes body -> search_body be f body -> ~ In tcp (removelast (f_protos f)) ->
  let l := map (fun x => (c_str (fst x), snd x)) (f_names f) in
  let ids := claimed_ids l (ask sources (map fst l) (map (fun _ => false) (map fst l))) in
  tcp_search host be' guid port sources (inbuf body be) = Some (if is_nil ids && negb (Z.testbit (f_flags f) 0) then None else Some (reply_bytes be' guid (f_id f) port ids)).
Proof.
  intros host be be' guid port sources f body B (e1 & resv & e2 & e3 & e4 & e5 & e6 & e7 & more & -> & R1 & LR & FA & R3 & FS & FP & RN & FN) NI l ids.
  assert (FB : 0 <= f_flags f < 256) by (apply is_bytes_app in B; destruct B as (_ & B); apply is_bytes_app in B; destruct B as (B & _); inversion B; auto).
  unfold tcp_search. rewrite (u_dec host 4 0 be _ e1 _ R1). rewrite (u_dec host 1 0 be _ [f_flags f] _ (rep1_is be _ FB)).
  rewrite (app_assoc resv e2), (app_assoc (resv ++ e2) e3). rewrite skip_dec by (rewrite !zlen_app; unfold zlen; rewrite LR, (fmt_addr_len _ _ FA), (rep_len _ _ _ _ R3); reflexivity).
  rewrite (size_dec host 0 false be _ e4 _ FS). unfold zlen at 1. rewrite Nat2Z.id, (tcp_protos_dec host be _ e5 FP NI). rewrite (u_dec host 2 0 be _ e6 _ RN). unfold zlen. rewrite Nat2Z.id, (tcp_names_dec host be _ e7 FN).
  cbv zeta. fold l. change (rgood (inbuf more be)) with true. cbn [negb]. fold ids. unfold search_mustreply. rewrite bit0 by auto. 
  match goal with |- (if ?c then _ else _) = _ => destruct c end; auto.
  change (WB [] None be' false) with (outbuf [] be'). rewrite reply_out. reflexivity.
Qed.
Lemma some_eq : forall (A : Type) (a b : A), Some a = Some b -> a = b.
Proof. congruence. Qed.
Lemma all_bytes : forall l, forallb (fun x => (0 <=? x) && (x <? 256)) l = true -> is_bytes l.
Proof. intros l H. apply Forall_forall. intros x X. rewrite forallb_forall in H. specialize (H x X). unfold is_byte. lia. Qed.
Lemma enc_bytes : forall be n v, is_bytes (enc_u be n v).
Proof. intros. unfold enc_u. destruct be; [apply is_bytes_rev|]; apply le_bytes_bytes. Qed.
Lemma reply_is_bytes : forall be guid id port ids, is_bytes guid -> is_bytes (reply_bytes be guid id port ids).
Proof.
  intros be guid id port ids B. unfold reply_bytes. repeat match goal with |- is_bytes (_ ++ _) => apply is_bytes_app; split end; auto using enc_bytes; try (apply all_bytes; reflexivity).
  - apply all_bytes. destruct (is_nil ids); reflexivity.
  - induction ids as [|i l IH]; cbn [ids_bytes]; [constructor|]. apply is_bytes_app; split; auto using enc_bytes.
Qed.
Lemma server_bytes : forall host guid port sources s d, is_bytes guid -> server_search host false guid port sources s = Some d -> is_bytes d.
Proof.
  intros host guid port sources s d B E. unfold server_search in E. cbv zeta in E. destruct (_ && _); [discriminate|].
  change (WB (repeat 0 8) None true false) with (outbuf (repeat 0 8) true) in E. rewrite reply_out in E. cbn [outbuf wd] in E. rewrite header_lim in E.
  match type of E with Some (patch 0 ?h (?z ++ ?b)) = _ => change (patch 0 h (z ++ b)) with (patch (@length Z []) h ([] ++ z ++ b)) in E end. rewrite patch_mid in E by (rewrite header_len; reflexivity). apply some_eq in E. rewrite <- E.
  cbn [app]. apply is_bytes_app. split; [|apply reply_is_bytes; auto]. unfold header_bytes. apply is_bytes_app. split; [apply all_bytes; reflexivity|apply enc_bytes].
Qed.
