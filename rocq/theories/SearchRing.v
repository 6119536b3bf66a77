(** Proofs about whole histories: no abort, the messages sent, and how the interval between searches grows. *)
From Coq Require Import ZArith List Bool Lia ZifyBool ZifyNat.
From Verif Require Import Base BaseProofs WireModel WireSpec WireProofs UdpModel UdpSpec UdpProofs SearchModel SearchSpec SearchProofs SearchWire.
Import ListNotations.
Local Open Scope Z_scope.

(** ** No abort *)
Definition short_build (e : event) : Prop := match e with Build _ name => zlen name <= 32000 | _ => True end.
Lemma same_short : forall c c', chans c = chans c' -> short c -> short c'.
Proof. intros c c' E S id x H. rewrite <- E in H. eauto. Qed.
Lemma tick_sim : forall host port k poked c ps c', buckets c <> [] -> tick_search host port k poked c = Some (ps, c') -> similar c c'.
Proof.
  intros host port k poked c ps c' NB E. destruct k; unfold tick_search in E.
  - match type of E with send_all _ _ _ _ _ _ _ ?x = _ => assert (N : buckets x <> []) end.
    { cbn [buckets]. intros Z. apply NB. pose proof (clear_len (buckets c) (cur c)) as L. rewrite Z in L. destruct (buckets c); [auto|discriminate]. }
    destruct (send_spec _ _ _ _ _ _ _ _ _ _ N (le_n _) E) as [_ B _ _ _]. exact B.
  - match type of E with send_all _ _ _ _ _ _ _ ?x = _ => destruct (send_spec _ _ _ _ _ _ _ _ _ _ (NB : buckets x <> []) (le_n _) E) as [_ B _ _ _] end. exact B.
  - cbv zeta in E. apply some_pair in E. destruct E as (_ & <-). apply similar_refl.
Qed.
(** what a step does to the channels: every property of channels by name is kept *)
Lemma step_chans : forall host port c e ps c' (P : Z -> str -> Prop), inv c -> (forall id x, chans c id = Some x -> P id (ch_name x)) ->
  (forall id name, e = Build id name -> P id name) -> step host port c e = Some (ps, c') -> forall id x, chans c' id = Some x -> P id (ch_name x).
Proof.
  intros host port c e ps c' P V H HB E.
  assert (T : forall k poked c0, tick_search host port k poked c0 = Some (ps, c') -> chans c0 = chans c -> buckets c0 = buckets c -> forall id x, chans c' id = Some x -> P id (ch_name x)).
  { intros k poked c0 T EC EB id x X. pose proof (tick_sim _ _ _ _ _ _ _ (eq_ind_r (fun b => b <> []) (nonempty c (I_len c V)) EB) T id) as S. rewrite X, EC in S.
    destruct (chans c id) as [y|] eqn:Y; [|tauto]. destruct S as (<- & _). eauto. }
  destruct e as [i n| | | | |i|i con|i]; cbn [step] in E.
  - destruct (chans c i) eqn:CI; apply some_pair in E; destruct E as (_ & <-); auto. intros id x X. cbn in X. destruct (Z.eqb_spec id i) as [->|]; [inversion X; subst; cbn; auto|eauto].
  - destruct (sched c); [eapply T; eauto|apply some_pair in E; destruct E as (_ & <-); auto].
  - eapply T; eauto.
  - eapply T; eauto.
  - apply some_pair in E; destruct E as (_ & <-); auto.
  - destruct (chans c i) as [y|] eqn:CI; apply some_pair in E; destruct E as (_ & <-); auto. intros id x X. cbn in X. destruct (Z.eqb_spec id i) as [->|]; [inversion X; subst; cbn; auto|eauto].
  - destruct (chans c i) as [y|] eqn:CI; apply some_pair in E; destruct E as (_ & <-); auto. intros id x X. cbn in X. destruct (Z.eqb_spec id i) as [->|]; [inversion X; subst; cbn; auto|eauto].
  - apply some_pair in E; destruct E as (_ & <-). intros id x X. cbn in X. destruct (id =? i); [discriminate|eauto].
Qed.
Lemma tick_ok : forall host port k poked c, buckets c <> [] -> short c -> tick_search host port k poked c <> None.
Proof.
  intros host port k poked c NB S. destruct k; unfold tick_search; [| |discriminate].
  - apply send_short; [|exact S]. cbn [buckets]. intros Z. apply NB. pose proof (clear_len (buckets c) (cur c)) as L. rewrite Z in L. destruct (buckets c); [auto|discriminate].
  - apply send_short; [exact NB|exact S].
Qed.
Lemma run_ok : forall host port es c, inv c -> short c -> Forall short_build es -> run host port c es <> None.
Proof.
  intros host port. induction es as [|e es IH]; intros c V S F; cbn [run]; [discriminate|]. inversion F; subst.
  destruct (step host port c e) as [(ps, c1)|] eqn:E.
  - pose proof (IH c1 (step_inv _ _ _ _ _ _ V E)) as X. destruct (run host port c1 es) as [(pss, c2)|]; [discriminate|]. intros _. apply X; auto.
    intros id x Hx. apply (step_chans _ _ _ _ _ _ (fun _ n => zlen n <= 32000) V S) with (2 := E) in Hx; auto. intros i n ->. exact H1.
  - intros _. pose proof (nonempty c (I_len c V)) as NB. destruct e as [i n| | | | |i|i con|i]; cbn [step] in E; try (destruct (chans c i); discriminate); try discriminate.
    + destruct (sched c); [|discriminate]. revert E. apply tick_ok; [exact NB|exact S].
    + revert E. apply tick_ok; [exact NB|exact S].
Qed.

(** ** The messages sent *)
Definition ping (port : Z) : packet := Packet [] (search_bytes 1 port [0] []).
Lemma ping_eq : forall host port, finish host (length (wd (start_msg host port true))) [] (wpush [0; 0] (start_msg host port true)) = ping port.
Proof.
  intros host port. assert (PC : length (wd (start_msg host port true)) = (34 + length [0%Z])%nat) by (rewrite start_eq; unfold lim; cbn [wd]; rewrite app_length, head_len; reflexivity).
  rewrite PC. apply finish_eq. rewrite start_eq. unfold wpush, lim. cbn [wd names_bytes app]. rewrite <- !app_assoc. reflexivity.
Qed.
Definition good_build (e : event) : Prop := match e with Build id name => 0 <= id < 2 ^ 32 /\ is_bytes name | _ => True end.
Definition entry_ok (x : Z * str) : Prop := 0 <= fst x < 2 ^ 32 /\ is_bytes (snd x).
Definition well (c : ctx) : Prop := forall id x, chans c id = Some x -> 0 <= id < 2 ^ 32 /\ is_bytes (ch_name x).
Definition all_ok (port : Z) (p : packet) : Prop := (packet_ok port p /\ Forall entry_ok (p_entries p)) \/ p = ping port.
Lemma tick_packets : forall host port k poked c ps c', buckets c <> [] -> well c -> tick_search host port k poked c = Some (ps, c') -> Forall (all_ok port) ps.
Proof.
  intros host port k poked c ps c' NB WL E.
  assert (G : forall f idx bucket c0, buckets c0 <> [] -> chans c0 = chans c -> (length bucket <= f)%nat -> send_all f host port k poked idx bucket c0 = Some (ps, c') -> Forall (all_ok port) ps).
  { intros f idx bucket c0 N EC LF S. pose proof (send_bytes _ _ _ _ _ _ _ _ _ _ S) as PB. destruct (send_spec _ _ _ _ _ _ _ _ _ _ N LF S) as [_ _ _ O _].
    apply Forall_forall. intros p IP. left. split; [rewrite Forall_forall in PB; auto|]. apply Forall_forall. intros [id name] IE. destruct (O p id name IP IE) as (_ & m & L). rewrite EC in L. exact (WL _ _ L). }
  destruct k; unfold tick_search in E.
  - eapply G; [| |apply le_n|exact E]; auto. cbn [buckets]. intros Z. apply NB. pose proof (clear_len (buckets c) (cur c)) as L. rewrite Z in L. destruct (buckets c); [auto|discriminate].
  - eapply G; [| |apply le_n|exact E]; auto.
  - cbv zeta in E. rewrite ping_eq in E. apply some_pair in E. destruct E as (<- & _). constructor; [right; reflexivity|constructor].
Qed.
Lemma run_packets : forall host port es c pss c', inv c -> well c -> Forall good_build es -> run host port c es = Some (pss, c') -> Forall (all_ok port) (concat pss) /\ well c'.
Proof.
  intros host port. induction es as [|e es IH]; intros c pss c' V WL F E; cbn [run] in E; [apply some_pair in E; destruct E as (<- & <-); cbn [concat]; auto|]. inversion F; subst.
  destruct (step host port c e) as [(ps, c1)|] eqn:E1; [|discriminate]. destruct (run host port c1 es) as [(pss1, c2)|] eqn:E2; [|discriminate]. apply some_pair in E. destruct E as (<- & <-).
  assert (W1 : well c1). { intros id x Hx. apply (step_chans _ _ _ _ _ _ (fun i n => 0 <= i < 2 ^ 32 /\ is_bytes n) V WL) with (2 := E1) in Hx; auto. intros i n ->. exact H1. }
  destruct (IH c1 pss1 c2 (step_inv _ _ _ _ _ _ V E1) W1 H2 E2) as (A & B). split; auto. cbn [concat]. apply Forall_app. split; auto.
  pose proof (nonempty c (I_len c V)) as NB. destruct e as [i n| | | | |i|i con|i]; cbn [step] in E1; try solve [destruct (chans c i); apply some_pair in E1; destruct E1 as (<- & _); constructor];
    try solve [apply some_pair in E1; destruct E1 as (<- & _); constructor].
  - destruct (sched c); [|apply some_pair in E1; destruct E1 as (<- & _); constructor]. refine (tick_packets _ _ _ _ _ _ _ _ _ E1); [exact NB|exact WL].
  - refine (tick_packets _ _ _ _ _ _ _ _ _ E1); [exact NB|exact WL].
  - refine (tick_packets _ _ _ _ _ _ _ _ _ E1); [exact NB|exact WL].
Qed.
Lemma packet_search : forall port p, 0 <= port < 2 ^ 16 -> packet_ok port p -> Forall entry_ok (p_entries p) -> forall flags port', 0 <= port' < 2 ^ 16 ->
  is_search flags port' [tcp] (p_entries p) (search_bytes flags port' tcp_bytes (p_entries p)).
Proof.
  intros port p HP [B S SZ MX N] F flags port' HP'. change tcp_bytes with ([zlen [tcp]] ++ [3; 116; 99; 112]). apply search_is; auto.
  - rewrite B in MX. rewrite search_bytes_len in MX |- *. rewrite !zlen_app in *. unfold zlen in *. rewrite !head_len in *. exact MX.
  - reflexivity.
  - change [3; 116; 99; 112] with ((([3] ++ tcp) ++ []) : list Z). constructor; [|constructor]. change 3 with (zlen tcp). constructor. constructor. unfold zlen; cbn; lia.
  - rewrite Forall_forall in *. intros x Hx. split; [apply (F x Hx)|apply (N x Hx)].
  - rewrite B in MX. rewrite search_bytes_len, !zlen_app in MX. assert (L : forall l, 5 * zlen l <= zlen (names_bytes l)).
    { induction l as [|[id name] l IH]; cbn [names_bytes]; [unfold zlen; cbn; lia|]. unfold enc_str. rewrite !zlen_app, zlen_cons. pose proof (zlen_nonneg name). unfold zlen at 2. rewrite enc_u_length.
      assert (1 <= zlen (enc_size true (zlen name))) by (unfold enc_size; destruct (_ <? _); rewrite zlen_cons; match goal with |- context [zlen ?y] => pose proof (zlen_nonneg y) end; lia). lia. }
    specialize (L (p_entries p)). pose proof (zlen_nonneg (repeat 0 8)). pose proof (zlen_nonneg (head_bytes 0 port tcp_bytes)). pose proof (zlen_nonneg [0; 0]). lia.
Qed.

(** a property of all the channels is one of every channel in a message *)
Lemma run_entries : forall host port (P : Z -> str -> Prop) es c pss c2, inv c -> (forall id x, chans c id = Some x -> P id (ch_name x)) -> (forall id name, In (Build id name) es -> P id name) ->
  run host port c es = Some (pss, c2) -> forall q, In q (concat pss) -> forall id name, In (id, name) (p_entries q) -> P id name.
Proof.
  intros host port P. induction es as [|e es IH]; intros c1 pss1 c2 V NZ NB R q IQ; cbn [run] in R; [apply some_pair in R; destruct R as (<- & _); destruct IQ|].
  destruct (step host port c1 e) as [(ps, c3)|] eqn:E; [|discriminate]. destruct (run host port c3 es) as [(pss3, c4)|] eqn:E3; [|discriminate]. apply some_pair in R. destruct R as (<- & _).
  cbn [concat] in IQ. apply in_app_iff in IQ. destruct IQ as [IQ|IQ].
  - intros id name IE. assert (exists n, chans c1 id = Some (Chan name true n)) as (n & CI); [|exact (NZ _ _ CI)].
    pose proof V as [L U SC N]. destruct e as [i m| | | | |i|i con|i]; cbn [step] in E; try solve [destruct (chans c1 i); apply some_pair in E; destruct E as (<- & _); destruct IQ]; try solve [apply some_pair in E; destruct E as (<- & _); destruct IQ].
    + destruct (sched c1); [|apply some_pair in E; destruct E as (<- & _); destruct IQ]. unfold tick_search in E.
      match type of E with send_all _ _ _ _ _ _ _ ?x = _ => destruct (send_spec _ _ _ _ _ _ _ _ _ _ (nonempty x L) (le_n _) E) as [_ _ _ O _] end. destruct (O q id name IQ IE) as (_ & X). exact X.
    + unfold tick_search in E. match type of E with send_all _ _ _ _ _ _ _ ?x = _ => assert (LX : length (buckets x) = nBuckets) by (cbn [buckets]; rewrite clear_len; exact L); destruct (send_spec _ _ _ _ _ _ _ _ _ _ (nonempty x LX) (le_n _) E) as [_ _ _ O _] end.
      destruct (O q id name IQ IE) as (_ & X). exact X.
    + unfold tick_search in E. cbv zeta in E. rewrite ping_eq in E. apply some_pair in E. destruct E as (<- & _). destruct IQ as [<-|[]]. destruct IE.
  - eapply IH; [eapply step_inv; eauto| | |exact E3|exact IQ].
    + intros id x. revert id x. apply (step_chans host port c1 e ps c3 P V NZ); auto. intros id name ->. eapply NB. left. reflexivity.
    + intros id name X. eapply NB. right. exact X.
Qed.
Lemma c_str_plain : forall s, ~ In 0 s -> c_str s = s.
Proof. induction s as [|x s IH]; intros X; cbn [c_str]; auto. destruct (Z.eqb_spec x 0); [subst; elim X; left; auto|]. f_equal. apply IH. intros Y. apply X. right. auto. Qed.
Lemma plain_names : forall host port es pss c p, (forall id name, In (Build id name) es -> ~ In 0 name) -> run host port new_ctx es = Some (pss, c) -> In p (concat pss) ->
  Forall (fun x => c_str (snd x) = snd x) (p_entries p).
Proof.
  intros host port es pss c p H R IP. apply Forall_forall. intros [id name] X. apply c_str_plain. cbn [snd]. eapply (run_entries host port (fun _ n => ~ In 0 n) es new_ctx pss c inv_new); eauto. intros ? ? Y; discriminate.
Qed.

(** ** The interval between searches *)
Fixpoint total (b : list (list Z)) : nat := match b with [] => 0 | l :: b' => length l + total b' end.
Lemma nth_total : forall b i, (length (nth i b []) <= total b)%nat.
Proof. induction b as [|l b IH]; intros [|i]; cbn; try lia. specialize (IH i). lia. Qed.
Lemma push_total : forall b i id, (i < length b)%nat -> total (push_at i id b) = S (total b).
Proof. induction b as [|l b IH]; intros [|i] id L; cbn in *; try lia. rewrite app_length. cbn. lia. rewrite IH by lia. lia. Qed.
Lemma clear_total : forall b i, (total (clear_at i b) + length (nth i b []) = total b)%nat.
Proof. induction b as [|l b IH]; intros [|i]; cbn; auto; try lia. specialize (IH i). lia. Qed.
Definition inc (k : kind) (poked : bool) (n s : nat) : nat := match k, poked with Check, false => bump k poked n s | _, _ => 0%nat end.
Lemma next_few : forall idx ninc b, (total b <= 100)%nat -> next_bucket idx ninc b = ((idx + ninc) mod length b)%nat.
Proof.
  intros idx ninc b T. unfold next_bucket. pose proof (nth_total b ((idx + ninc) mod length b)). match goal with |- (if ?x && ?y then _ else _) = _ => replace y with false by (symmetry; apply Nat.ltb_ge; lia) end. rewrite andb_false_r. reflexivity.
Qed.
Record moved (k : kind) (poked : bool) (idx : nat) (bucket rest : list Z) (c c' : ctx) : Prop := {
  M_len : length (buckets c') = nBuckets;
  M_total : (total (buckets c') + length rest <= total (buckets c) + length bucket)%nat;
  M_keep : forall i, exists l, nth i (buckets c') [] = nth i (buckets c) [] ++ l;
  M_same : forall id, ~ In id bucket \/ In id rest -> chans c' id = chans c id;
  M_moved : forall id name n, In id bucket -> ~ In id rest -> chans c id = Some (Chan name true n) ->
    chans c' id = Some (Chan name true (bump k poked nBuckets n)) /\ In id (nth ((idx + inc k poked nBuckets n) mod nBuckets) (buckets c') []);
  M_suffix : exists used, bucket = used ++ rest
}.
Lemma fill_moved : forall host k poked idx bucket w out c rest w' out' c', length (buckets c) = nBuckets -> (total (buckets c) + length bucket <= 100)%nat -> NoDup bucket ->
  fill host k poked idx bucket w out c = (rest, w', out', c') -> werr w' = false -> moved k poked idx bucket rest c c'.
Proof.
  intros host k poked idx. induction bucket as [|id l IH]; intros w out c rest w' out' c' LB T ND E W; cbn [fill] in E.
  { inversion E; subst. constructor; auto. intros i; exists []; rewrite app_nil_r; auto. intros ? ? ? []. exists []; auto. }
  inversion ND as [|? ? NI ND']; subst. cbn [length] in T.
  assert (SKIP : forall w0 out0, (forall name n, chans c id <> Some (Chan name true n)) -> fill host k poked idx l w0 out0 c = (rest, w', out', c') -> moved k poked idx (id :: l) rest c c').
  { intros w0 out0 NL E0. destruct (IH _ _ _ _ _ _ _ LB ltac:(lia) ND' E0 W) as [A B C D F (u & U)]. constructor; auto.
    - cbn [length]. lia.
    - intros i [H|H]; apply D; auto. left. intros X. apply H. right; auto.
    - intros i name n [<-|H] NR CI; [elim (NL name n); auto|auto].
    - exists (id :: u). rewrite U. reflexivity. }
  destruct (chans c id) as [x|] eqn:CI; [|eapply SKIP; [congruence|exact E]]. destruct (ch_searching x) eqn:SX; [|eapply SKIP; [intros ? ? X; inversion X; subst; discriminate|exact E]]. clear SKIP.
  cbv zeta in E. set (w1 := to_wire_str host (ch_name x) (to_wire_u host 4 id w)) in *. destruct (werr w1) eqn:W1.
  { pose proof (fill_err host k poked idx l w1 out c W1) as X. rewrite E in X. cbn in X. congruence. }
  destruct ((maxSearchPayload <? zlen (wd w1)) && negb (is_nil out)) eqn:P.
  { inversion E; subst. constructor; auto. intros i; exists []; rewrite app_nil_r; auto. intros i nm n H1 H2; contradiction. exists []; auto. }
  assert (NX : next_bucket idx (match k, poked with Check, false => match k, poked with Check, false => Nat.min (length (buckets c)) (ch_nsearch x + 1) | _, _ => ch_nsearch x end | _, _ => 0%nat end) (buckets c)
           = ((idx + inc k poked nBuckets (ch_nsearch x)) mod nBuckets)%nat).
  { rewrite next_few by lia. rewrite LB. destruct k, poked; reflexivity. }
  rewrite NX in E. clear NX. set (nx := ((idx + inc k poked nBuckets (ch_nsearch x)) mod nBuckets)%nat) in *. assert (NL : (nx < length (buckets c))%nat) by (rewrite LB; apply Nat.mod_upper_bound; discriminate).
  match type of E with fill _ _ _ _ _ _ _ ?cc = _ => set (c2 := cc) in * end.
  assert (L2 : length (buckets c2) = nBuckets) by (cbn [c2 set_buckets set_chan buckets]; rewrite push_len; auto).
  assert (T2 : total (buckets c2) = S (total (buckets c))) by (cbn [c2 set_buckets set_chan buckets]; rewrite push_total; auto).
  destruct (IH _ _ _ _ _ _ _ L2 ltac:(lia) ND' E W) as [A B C D F (u & U)].
  assert (NR : ~ In id rest) by (intros X; apply NI; rewrite U; apply in_or_app; auto).
  assert (KEEP : forall i, exists l0, nth i (buckets c2) [] = nth i (buckets c) [] ++ l0).
  { intros i. cbn [c2 set_buckets set_chan buckets]. destruct (Nat.eq_dec nx i) as [<-|NE]; [exists [id]; apply push_same; auto|exists []; rewrite push_other by auto; rewrite app_nil_r; auto]. }
  constructor; auto.
  - cbn [length]. lia.
  - intros i. destruct (C i) as (l1 & ->). destruct (KEEP i) as (l0 & ->). exists (l0 ++ l1). rewrite app_assoc. auto.
  - intros i H. assert (NE : i <> id) by (intros ->; destruct H as [H|H]; [apply H; left; auto|contradiction]). rewrite D.
    + cbn [c2 set_buckets set_chan chans]. destruct (Z.eqb_spec i id); [contradiction|auto].
    + destruct H as [H|H]; auto. left. intros X. apply H. right; auto.
  - intros i name n [<-|H] NRi CIi.
    + rewrite CI in CIi. inversion CIi; subst x. cbn [ch_name ch_nsearch ch_searching] in *. split.
      * rewrite D by (left; auto). cbn [c2 set_buckets set_chan chans]. rewrite Z.eqb_refl. rewrite LB. destruct k, poked; reflexivity.
      * change (In id (nth nx (buckets c') [])). destruct (C nx) as (l1 & EQ). rewrite EQ. apply in_or_app. left. cbn [c2 set_buckets set_chan buckets]. rewrite push_same by auto. apply in_or_app. right. left. auto.
    + apply F; auto. cbn [c2 set_buckets set_chan chans]. destruct (Z.eqb_spec i id) as [->|]; [contradiction|auto].
  - exists (id :: u). rewrite U. reflexivity.
Qed.
Lemma nodup_suffix : forall (A : Type) (u r : list A), NoDup (u ++ r) -> NoDup r.
Proof. induction u; cbn; auto. intros r H. inversion H; auto. Qed.
Lemma send_other : forall f host port k poked idx bucket c ps c' id, length (buckets c) = nBuckets -> (total (buckets c) + length bucket <= 100)%nat -> NoDup bucket -> (length bucket <= f)%nat ->
  send_all f host port k poked idx bucket c = Some (ps, c') -> ~ In id bucket -> chans c' id = chans c id /\ forall i, exists l, nth i (buckets c') [] = nth i (buckets c) [] ++ l.
Proof.
  induction f as [|f IH]; intros host port k poked idx bucket c ps c' id LB T ND LF E NI; cbn [send_all] in E; [apply some_pair in E; destruct E as (_ & <-); split; auto; intros; exists []; rewrite app_nil_r; auto|].
  destruct bucket as [|i0 l0]; [apply some_pair in E; destruct E as (_ & <-); split; auto; intros; exists []; rewrite app_nil_r; auto|]. cbv zeta in E. set (bucket := i0 :: l0) in *. clearbody bucket. clear i0 l0.
  destruct (fill host k poked idx bucket (wpush [0; 0] (start_msg host port false)) [] c) as [[[rest w] out] c1] eqn:EF. destruct (werr w) eqn:W; [discriminate|].
  destruct (fill_moved _ _ _ _ _ _ _ _ _ _ _ _ LB T ND EF W) as [A B C D F (u & U)]. destruct (fill_spec _ _ _ _ _ _ _ _ _ _ _ _ (nonempty c LB) EF W) as [_ _ _ _ _ ST].
  destruct (is_nil out) eqn:N; [apply some_pair in E; destruct E as (_ & <-); split; auto|].
  destruct (send_all f host port k poked idx rest c1) as [(ps2, c2)|] eqn:E2; [|discriminate]. apply some_pair in E. destruct E as (_ & <-).
  assert (LR : (length rest <= f)%nat).
  { destruct rest as [|r0 rr] eqn:R; [cbn; lia|]. destruct ST as (_ & X); [discriminate|]. specialize (X eq_refl). destruct u; [cbn in U; congruence|]. rewrite U in LF. cbn [app length] in LF. rewrite app_length in LF. lia. }
  destruct (IH host port k poked idx rest c1 ps2 c2 id A ltac:(lia)) as (G1 & G2); auto. { rewrite U in ND; eapply nodup_suffix; eauto. } { intros X. apply NI. rewrite U. apply in_or_app; auto. }
  split; [rewrite G1; apply D; auto|]. intros i. destruct (G2 i) as (l1 & ->). destruct (C i) as (l2 & ->). exists (l2 ++ l1). rewrite app_assoc. auto.
Qed.
Lemma send_moved : forall f host port k poked idx bucket c ps c', length (buckets c) = nBuckets -> (total (buckets c) + length bucket <= 100)%nat -> NoDup bucket -> (length bucket <= f)%nat ->
  send_all f host port k poked idx bucket c = Some (ps, c') -> forall id name n, In id bucket -> chans c id = Some (Chan name true n) ->
    chans c' id = Some (Chan name true (bump k poked nBuckets n)) /\ In id (nth ((idx + inc k poked nBuckets n) mod nBuckets) (buckets c') []).
Proof.
  induction f as [|f IH]; intros host port k poked idx bucket c ps c' LB T ND LF E id name n HI CI; cbn [send_all] in E; [destruct bucket; [destruct HI|cbn in LF; lia]|].
  destruct bucket as [|i0 l0]; [destruct HI|]. cbv zeta in E. set (bucket := i0 :: l0) in *. assert (BN : bucket <> []) by discriminate. clearbody bucket. clear i0 l0.
  destruct (fill host k poked idx bucket (wpush [0; 0] (start_msg host port false)) [] c) as [[[rest w] out] c1] eqn:EF. destruct (werr w) eqn:W; [discriminate|].
  destruct (fill_moved _ _ _ _ _ _ _ _ _ _ _ _ LB T ND EF W) as [A B C D F (u & U)]. destruct (fill_spec _ _ _ _ _ _ _ _ _ _ _ _ (nonempty c LB) EF W) as [_ _ _ _ _ ST].
  destruct (is_nil out) eqn:N.
  - apply some_pair in E. destruct E as (_ & <-). apply F; auto. intros X. destruct ST as (X1 & _); [intros ->; destruct X|]. destruct out; [congruence|discriminate].
  - destruct (send_all f host port k poked idx rest c1) as [(ps2, c2)|] eqn:E2; [|discriminate]. apply some_pair in E. destruct E as (_ & <-).
    assert (LR : (length rest <= f)%nat).
    { destruct rest as [|r0 rr] eqn:R; [cbn; lia|]. destruct ST as (_ & X); [discriminate|]. specialize (X eq_refl). destruct u; [cbn in U; congruence|]. rewrite U in LF. cbn [app length] in LF. rewrite app_length in LF. lia. }
    assert (NDr : NoDup rest) by (rewrite U in ND; eapply nodup_suffix; eauto).
    destruct (in_dec Z.eq_dec id rest) as [IR|NR].
    + eapply IH; eauto; [lia|]. rewrite D; auto.
    + destruct (F id name n HI NR CI) as (F1 & F2).
      assert (T1 : (total (buckets c1) + length rest <= 100)%nat) by lia. destruct (send_other _ _ _ _ _ _ _ _ _ _ id A T1 NDr LR E2 NR) as (G1 & G2).
      rewrite G1. split; auto. destruct (G2 ((idx + inc k poked nBuckets n) mod nBuckets)%nat) as (l1 & ->). apply in_or_app. auto.
Qed.
