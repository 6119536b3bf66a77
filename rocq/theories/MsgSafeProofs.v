(** Proofs on messages: hostile input. *)
From Coq Require Import ZArith List Bool Lia ZifyBool ZifyNat.
From Verif Require Import Base BaseProofs WireModel WireSpec WireProofs SegModel SegSpec SegProofs
  BitMaskModel BitMaskSpec BitMaskProofs TypeModel TypeSpec TypeProofs TypeNameProofs
  ValueModel ValueSpec LayoutProofs ValueTypeProofs ValueSafeProofs ValueTopProofs ValueEncProofs ValueRoundProofs ValueUpdateProofs ValueProps
  MsgModel MsgSpec MsgProofs.
Import ListNotations.
Local Open Scope Z_scope.

Definition small_type (m : member) : Prop := describable m = true /\ sized m /\ zlen (flatten m) < 2 ^ 16.
Definition find_ok (find : Z -> sop) : Prop := forall ioid nodes, find ioid = OpTyped nodes -> exists m, nodes = flatten m /\ small_type m.
Definition info_ok (i : rinfo) : Prop := forall p, ri_proto i = Some p -> exists m, v_nodes p = flatten m /\ small_type m.

(** what is known of the buffer while a message is read *)
Definition buf_ok (fuel : nat) (b : rbuf) : Prop := is_bytes (rd b) /\ (left b < fuel)%nat.
Lemma buf_step fuel b b' : buf_ok fuel b -> safe_step b b' -> buf_ok fuel b'.
Proof. intros (B & L) S. split; [eapply safe_bytes; eauto|apply safe_left in S; lia]. Qed.

Definition safe_msg {A} (P : A -> Prop) (fuel : nat) (p : rprog (dres (verdict A * tstore))) : Prop :=
  forall b, buf_ok fuel b -> wp p b (fun r _ => res_ok (taken P) r).
Section Safe.
Context {A : Type} (P : A -> Prop) (fuel : nat).
Notation safe := (safe_msg P fuel).
Lemma sm_bind {B} (p : rprog B) f : (forall a, safe (f a)) -> safe (pbind p f).
Proof. intros H b B0. apply wp_run. intros a b' _ S. apply H. eapply buf_step; eauto. Qed.
Lemma sm_good k : safe (k true) -> safe (k false) -> safe (PGood k).
Proof. intros H1 H2 b B0. unfold wp. cbn [run_flat]. destruct (rgood b); [now apply H1|now apply H2]. Qed.
Lemma sm_take n k : (forall o, safe (k o)) -> safe (PTake n k).
Proof.
  intros H b B0. unfold wp. cbn [run_flat]. destruct (rensure n b) eqn:E; [apply H; eapply buf_step; [exact B0|now apply safe_advance]|].
  apply H. eapply buf_step; [exact B0|apply safe_rfault].
Qed.
Lemma sm_throw : safe (PRet DThrow).
Proof. intros b _. apply wp_ret. apply res_throw. Qed.
Lemma sm_pok v ts : taken P v -> cache_ok ts -> safe (pok (v, ts)).
Proof. intros H C b _. now apply wp_pok. Qed.
Lemma sm_if_good bad ok ts : taken P bad -> taken P ok -> cache_ok ts -> safe (if_good bad ok ts).
Proof. intros. apply sm_good; now apply sm_pok. Qed.
Lemma sm_type host ts f : cache_ok ts -> (forall o ts', all_usable (value_or_empty o) -> cache_ok ts' -> safe (f (o, ts'))) -> safe (dbind (from_wire_type host ts) f).
Proof.
  intros C H b B0. eapply wp_res_dbind; [apply from_wire_type_good; [exact C|apply B0]|]. intros o ts' b' S M C'. apply H; auto; [|eapply buf_step; eauto].
  intros v E. destruct o as [[w|]|]; cbn in E; try discriminate. injection E as <-. now apply M.
Qed.
Lemma sm_type_value host ts f : cache_ok ts -> (forall o ts', all_usable (value_or_empty o) -> cache_ok ts' -> safe (f (o, ts'))) -> safe (dbind (from_wire_type_value fuel host ts) f).
Proof.
  intros C H b B0. eapply wp_res_dbind; [apply from_wire_type_value_good; [exact C|apply B0|apply B0]|]. intros o ts' b' S M C'. apply H; auto; [|eapply buf_step; eauto].
  intros v E. destruct o as [[w|]|]; cbn in E; try discriminate. injection E as <-. now apply M.
Qed.
Lemma sm_valid host v ts f : usable v -> zlen (v_nodes v) < 2 ^ 16 -> cache_ok ts -> (forall v' ts', usable v' -> cache_ok ts' -> safe (f (v', ts'))) ->
  safe (dbind (from_wire_valid fuel host v ts) f).
Proof.
  intros U L C H b B0. eapply wp_res_dbind; [apply from_wire_valid_good; [exact U|exact L|exact C|apply B0|apply B0]|]. intros v' ts' b' S (U' & _) C'. apply H; auto. eapply buf_step; eauto.
Qed.
Lemma sm_none {X} (ts : tstore) (f : option X * tstore -> _) : safe (f (None, ts)) -> safe (dbind (pok (None, ts)) f).
Proof. intros H b B0. unfold dbind. apply wp_bind. unfold wp. cbn [pok run_flat fst snd]. now apply H. Qed.
End Safe.

Lemma small_new m : small_type m -> exists v, value_new (flatten m) = DOK v /\ usable v /\ v_nodes v = flatten m.
Proof.
  intros (D & S & _). destruct (value_new_spec m (flatten m) D) as [V _]; [reflexivity|]. specialize (V S).
  destruct (C12_value_of_received_type m D) as [(c & E & U & _)|E]; rewrite V in E; [|discriminate]. eexists. split; [exact V|]. injection E as ->. split; [exact U|reflexivity].
Qed.
Lemma all_usable_none : all_usable None.
Proof. intros v E. discriminate. Qed.
Lemma all_usable_some v : usable v -> all_usable (Some v).
Proof. intros U w E. injection E as <-. exact U. Qed.
#[local] Hint Resolve all_usable_none all_usable_some I : msg.
Ltac sm_tac := repeat (intros; cbv zeta; cbn [fst snd]; lazymatch goal with
  | |- safe_msg _ _ (dbind (from_wire_type _ _) _) => apply sm_type; [assumption|]
  | |- safe_msg _ _ (dbind (from_wire_type_value _ _ _) _) => apply sm_type_value; [assumption|]
  | |- safe_msg _ _ (dbind (pok (None, _)) _) => apply sm_none
  | |- safe_msg _ _ (pbind _ _) => apply sm_bind
  | |- safe_msg _ _ (PTake _ _) => apply sm_take
  | |- safe_msg _ _ (PGood _) => apply sm_good; cbn [negb]
  | |- safe_msg _ _ (if_good _ _ _) => apply sm_if_good; cbn; auto with msg
  | |- safe_msg _ _ (pok _) => apply sm_pok; cbn; auto with msg
  | |- safe_msg _ _ (PRet DThrow) => apply sm_throw
  | |- safe_msg _ _ (if ?c then _ else _) => destruct c
  end).

#[local] Hint Extern 3 (active _ _) => (unfold active; split; congruence) : msg.
Lemma s_gpr_safe fuel host k find ts : cache_ok ts -> find_ok find -> safe_msg (request_ok find) fuel (s_gpr fuel host k find ts).
Proof.
  intros C F. unfold s_gpr. sm_tac. destruct (find _) as [| | |nodes] eqn:FI; sm_tac.
  - destruct k; sm_tac.
  - destruct (F _ _ FI) as (m & -> & SM). destruct (small_new m SM) as (v & -> & U & N). destruct SM as (_ & _ & L). rewrite <- N in L.
    destruct k; sm_tac; (apply sm_valid; [exact U|exact L|exact C|]; sm_tac).
Qed.
Lemma s_mon_safe fuel host find ts : cache_ok ts -> safe_msg (request_ok find) fuel (s_mon fuel host find ts).
Proof. intros C. unfold s_mon. sm_tac. destruct (find _) eqn:FI; sm_tac. Qed.
Lemma s_names_ok host n b : Forall (fun p => snd p <> []) (fst (run_flat (s_names host n) b)).
Proof.
  revert b. induction n as [|n IH]; intro b; cbn [s_names run_flat fst]; [constructor|].
  rewrite run_flat_bind. destruct (run_flat (p_u host 4 ffffffff) b) as [cid b1]. rewrite run_flat_bind. destruct (run_flat (p_str host []) b1) as [name b2]. cbn [run_flat].
  destruct (negb (rgood b2) || is_nil name) eqn:E; [constructor|]. rewrite run_flat_bind. specialize (IH b2). destruct (run_flat (s_names host n) b2) as [l b3]. cbn [run_flat fst] in *.
  constructor; [|exact IH]. cbn. destruct name; [cbn in E; lia|discriminate].
Qed.
Lemma s_create_safe fuel host find ts : cache_ok ts -> safe_msg (request_ok find) fuel (s_create host ts).
Proof.
  intro C. unfold s_create. apply sm_bind. intros cnt b B0. apply wp_run. intros l b' E S. unfold wp. cbn [run_flat fst snd pok]. apply res_dok; [|exact C]. cbn.
  pose proof (s_names_ok host (Z.to_nat cnt) b) as K. now rewrite E in K.
Qed.
Lemma s_handle_safe fuel host cmd find ts : cache_ok ts -> find_ok find -> safe_msg (request_ok find) fuel (s_handle host cmd find ts fuel).
Proof.
  intros C F. unfold s_handle. repeat match goal with |- safe_msg _ _ (if ?c then _ else _) => destruct c end;
  lazymatch goal with
  | |- safe_msg _ _ (s_gpr _ _ _ _ _) => now apply s_gpr_safe
  | |- safe_msg _ _ (s_mon _ _ _ _) => now apply s_mon_safe
  | |- safe_msg _ _ (s_create _ _) => now apply s_create_safe
  | |- _ => unfold s_validation, s_pair, s_get_field, s_message; sm_tac
  end.
Qed.
Lemma c_gpr_safe fuel host junk k find ts : cache_ok ts -> (forall ioid info, find ioid = Some info -> info_ok info) -> safe_msg reply_ok fuel (c_gpr fuel host junk k find ts).
Proof.
  intros C F. unfold c_gpr.
  assert (K : forall ioid subcmd sts o ts', all_usable (value_or_empty o) -> cache_ok ts' ->
    safe_msg reply_ok fuel (PGood (fun g1 => if negb g1 then pok (Closed, snd (o, ts')) else match find ioid with
       | None => pok (Ignored, snd (o, ts'))
       | Some info =>
           if negb (negb (is_rpc k) && sub subcmd 8 && status_success sts) && negb (sub subcmd 8) && (is_get k || (is_put k && sub subcmd 64)) && status_success sts
           then match ri_proto info with
                | None => pok (Took (AGpr k ioid subcmd sts None), snd (o, ts'))
                | Some p => match value_new (v_nodes p) with
                    | DOK v => dbind (from_wire_valid fuel host v (snd (o, ts'))) (fun r2 => if_good Closed (Took (AGpr k ioid subcmd sts (Some (fst r2)))) (snd r2))
                    | DThrow => PRet DThrow | DUB => PRet DUB | DFuel => PRet DFuel end
                end
           else pok (Took (AGpr k ioid subcmd sts (value_or_empty (fst (o, ts')))), snd (o, ts'))
       end))).
  { intros ioid subcmd sts o ts' U C'. sm_tac. destruct (find ioid) as [info|] eqn:FI; sm_tac. destruct (ri_proto info) as [p|] eqn:PI; sm_tac.
    destruct (F _ _ FI p PI) as (m & NP & SM). rewrite NP. destruct (small_new m SM) as (v & -> & UV & N). destruct SM as (_ & _ & L). rewrite <- N in L.
    apply sm_valid; [exact UV|exact L|exact C'|]. sm_tac. }
  apply sm_bind. intro ioid. apply sm_bind. intro subcmd. apply sm_bind. intro sts. cbv zeta. apply sm_good;
  match goal with |- safe_msg _ _ (dbind (if ?c then _ else if ?d then _ else _) _) => destruct c; [|destruct d] end;
    (first [apply sm_type; [exact C|] | apply sm_type_value; [exact C|] | apply sm_none]); intros; apply K; auto using all_usable_none.
Qed.
Lemma c_mon_safe last fuel host find ts : cache_ok ts ->
  (forall ioid info, find ioid = Some info -> info_ok info /\ ri_fl info = true /\ ri_proto info <> None) ->
  safe_msg reply_ok fuel (c_mon_body last fuel host find ts).
Proof.
  intros C F. unfold c_mon_body.
  assert (K : forall ioid subcmd sts o ts', all_usable (value_or_empty o) -> cache_ok ts' ->
    safe_msg reply_ok fuel (PGood (fun g => if negb g then pok (Closed, ts') else match find ioid with
      | None => pok (Ignored, ts')
      | Some info =>
          if negb (status_success sts) then pok (Took (AMon ioid subcmd sts None false), ts')
          else if sub subcmd 8 then pok (Took (AMon ioid subcmd sts (value_or_empty o) false), ts')
          else if negb (sub subcmd 16) || negb last then c_update fuel host ioid subcmd sts info ts'
          else pok (Took (AMon ioid subcmd sts None false), ts')
      end))).
  { intros ioid subcmd sts o ts' U C'. sm_tac. destruct (find ioid) as [info|] eqn:FI; sm_tac.
    destruct (F _ _ FI) as (IO & FL & PN). unfold c_update. rewrite FL. cbn [negb]. destruct (ri_proto info) as [p|] eqn:PI; [|congruence].
    destruct (IO p PI) as (m & NP & SM). rewrite NP. destruct (small_new m SM) as (v & -> & UV & N). destruct SM as (_ & _ & L). rewrite <- N in L.
    apply sm_valid; [exact UV|exact L|exact C'|]. sm_tac. }
  intros b B0. unfold dbind at 1. apply wp_bind. unfold c_mon_head.
  apply wp_run. intros ioid b1 _ S1. apply wp_run. intros subcmd b2 _ S2. apply wp_run. intros sts b3 _ S3.
  assert (B3 : buf_ok fuel b3) by eauto using buf_step. apply wp_dbind.
  destruct (sub subcmd 8 && status_success sts).
  - eapply wp_mono; [apply from_wire_type_good; [exact C|apply B3]|]. intros r b4 S4 [-> | (o & ts' & -> & M & C')]; [apply res_throw|].
    apply wp_ret. apply K; [|exact C'|eapply buf_step; eauto]. intros v E. destruct o as [[w|]|]; cbn in E; try discriminate. injection E as <-. now apply M.
  - apply wp_ret. apply wp_ret. apply K; auto using all_usable_none.
Qed.
Lemma c_handle_safe fuel host cmd junk find ts : cache_ok ts -> (forall ioid info, find ioid = Some info -> info_ok info) ->
  safe_msg reply_ok fuel (c_handle host cmd junk find ts fuel).
Proof.
  intros C F. unfold c_handle. repeat match goal with |- safe_msg _ _ (if ?c then _ else _) => destruct c end;
  lazymatch goal with
  | |- safe_msg _ _ (c_gpr _ _ _ _ _ _) => now apply c_gpr_safe
  | |- _ => unfold c_validate, c_created, c_destroyed, c_validated, c_field, c_message; sm_tac
  end.
  intro sts. destruct (status_success sts); sm_tac.
Qed.
