(** Links: sharing of channels. *)
From Coq Require Import String ZArith List Bool Arith Lia Sorted.
From Verif Require Import Base BaseProofs WireModel TypeModel TextModel ValueModel CopyModel GroupModel LinkModel LinkSpec LinkProofs2 LinkProofs3 LinkProofs4 LinkProofs5 LinkProofs6 LinkProofs7 LinkProofs8 LinkProofs9.
Import ListNotations.

Record neat (x : ctx) : Prop := {
  n_in : forall c k, x_chans x c = Some k -> In (k_key k, c) (x_keys x);
  n_out : forall q c, In (q, c) (x_keys x) -> exists k, x_chans x c = Some k /\ k_key k = q;
  n_one : NoDup (map fst (x_keys x)) }.
(** keys and numbers of channels are kept *)
Definition stays (x y : ctx) : Prop := x_keys y = x_keys x /\ forall c, option_map k_key (x_chans y c) = option_map k_key (x_chans x c).
Lemma stays_refl x : stays x x.
Proof. split; reflexivity. Qed.
Lemma stays_trans x y z : stays x y -> stays y z -> stays x z.
Proof. intros [A B] [C D]. split; [congruence|]. intros c. rewrite D. apply B. Qed.
Lemma stays_chans x y : x_keys y = x_keys x -> x_chans y = x_chans x -> stays x y.
Proof. intros A B. split; [exact A|]. intros c. rewrite B. reflexivity. Qed.
Lemma stays_set c k m x : x_chans x c = Some k -> k_key m = k_key k -> stays x (set_chan c (Some m) x).
Proof. intros E F. split; [reflexivity|]. intros d. cbn. destruct (Nat.eqb_spec d c) as [-> |]; [rewrite E; cbn; congruence|reflexivity]. Qed.
Lemma stays_core x y : core x y -> stays x y.
Proof.
  intros C. split; [apply C|]. intros c. pose proof (co_chans _ _ C c) as H. destruct (x_chans y c) as [k|], (x_chans x c) as [m|]; try discriminate H; [|reflexivity].
  apply some_inj in H. destruct (kcore_inj _ _ H) as (E & _). cbn. congruence.
Qed.
Lemma neat_stays x y : neat x -> stays x y -> neat y.
Proof.
  intros N [A B]. constructor.
  - intros c k K. specialize (B c). rewrite K in B. destruct (x_chans x c) as [m|] eqn:M; [|discriminate]. injection B as B. rewrite A, B. exact (n_in _ N c m M).
  - intros q c I. rewrite A in I. destruct (n_out _ N q c I) as (k & K & E). specialize (B c). rewrite K in B. destruct (x_chans y c) as [m|]; [|discriminate]. injection B as B. exists m. split; [reflexivity|congruence].
  - rewrite A. exact (n_one _ N).
Qed.
Lemma stays_subscribe c x : stays x (subscribe c x).
Proof. unfold subscribe. destruct (x_chans x c) as [k|] eqn:K; [|apply stays_refl]. apply (stays_trans _ (set_chan c (Some (k_with_open true k)) x)); [apply (stays_set c k); [exact K|reflexivity]|apply stays_chans; reflexivity]. Qed.
Lemma stays_work x : inv x -> stays x (work x).
Proof.
  intros IV. unfold work. destruct (x_tasks x) as [|[t|t] r] eqn:T; [apply stays_refl| |].
  - destruct (x_chans x t) as [k|] eqn:K; [|unfold run_chan; cbn; rewrite K; apply stays_chans; reflexivity]. destruct (alive k) eqn:AL; [|unfold run_chan; cbn; rewrite K, AL; apply stays_chans; reflexivity].
    destruct (k_events k) as [|e es] eqn:EV.
    { unfold run_chan. cbn. rewrite K, AL, EV. cbn [negb]. apply (stays_trans _ (set_tasks r x)); [apply stays_chans; reflexivity|]. apply (stays_set t k); [exact K|reflexivity]. }
    assert (NE : k_links k <> []) by (unfold alive in AL; destruct (k_links k); discriminate). rewrite (run_chan_tasks t x k e es r K NE EV). pose proof (run_chan_event t x k e es IV K NE EV) as H. cbv zeta in H. destruct H as (A1 & _ & _ & A4 & _).
    split; [exact A4|]. intros c. cbn [set_tasks x_chans]. rewrite A1. destruct (Nat.eqb_spec c t) as [-> |N]; [|reflexivity]. rewrite K. cbn. destruct (took_rest e (k_with_events es (k_notify k) k)) as (-> & _). reflexivity.
  - apply (stays_trans _ (set_tasks r x)); [apply stays_chans; reflexivity|]. apply stays_core, core_after_put.
Qed.
Lemma stays_init ks : forall x, stays x (fold_left (fun x (p : key * nat) => match x_chans x (snd p) with Some k => if alive k then subscribe (snd p) x else x | None => x end) ks x).
Proof.
  induction ks as [|p ks IH]; intros x; [apply stays_refl|]. cbn [fold_left]. eapply stays_trans; [|apply IH]. destruct (x_chans x (snd p)) as [k|]; [|apply stays_refl]. destruct (alive k); [apply stays_subscribe|apply stays_refl].
Qed.
(** every event but opening a link and the end of a channel *)
Lemma stays_step fp x e y : inv x -> step fp x e = Some y -> (forall i cf kd r t, e <> EOpen i cf kd r t) -> (forall c, e <> EFree c) -> stays x y.
Proof.
  intros IV H N1 N2. destruct e as [j cf kd r t|j|c'| |c' ev| |j t n|j d' w|j|c' w bad|c' ok|r rd]; cbn [step] in H; try (injection H as <-).
  - destruct (N1 j cf kd r t eq_refl).
  - unfold remove_link. destruct (x_links x j) as [lj|]; [|apply stays_refl]. cbv zeta. destruct (l_chan lj) as [c1|]; [|apply stays_chans; reflexivity]. destruct (x_chans x c1) as [k1|] eqn:K1; [|apply stays_chans; reflexivity].
    apply (stays_trans _ (set_link j None x)); [apply stays_chans; reflexivity|]. apply (stays_set c1 k1); [exact K1|reflexivity].
  - destruct (N2 c' eq_refl).
  - unfold init_links. destruct (x_running x); [apply stays_refl|]. apply (stays_trans _ (set_running x)); [apply stays_chans; reflexivity|apply stays_init].
  - unfold net. destruct (x_chans x c') as [k|] eqn:K; [|apply stays_refl]. destruct (k_open k); [|apply stays_refl]. cbv zeta.
    apply (stays_trans _ (set_chan c' (Some (k_with_events (k_events k ++ [ev]) false k)) x)); [apply (stays_set c' k); [exact K|reflexivity]|]. destruct (_ && _); apply stays_chans; reflexivity.
  - apply stays_work, IV.
  - eapply stays_core, core_get; exact H.
  - eapply stays_core, core_put_value; exact H.
  - eapply stays_core, core_forward; exact H.
  - apply stays_core, core_build.
  - apply stays_core, core_done.
  - apply stays_core, core_set_rec.
Qed.
Lemma find_chan_neat x q : neat x -> (forall c k, x_chans x c = Some k -> alive k = true) -> find_chan q x = None -> ~ In q (map fst (x_keys x)).
Proof.
  intros N A F I. apply in_map_iff in I. destruct I as ([q' c] & E & I). cbn in E. subst q'. unfold find_chan in F.
  destruct (find (fun p => key_eqb q (fst p)) (x_keys x)) as [[q' c']|] eqn:FI.
  - apply find_some in FI. destruct FI as [FI _]. destruct (n_out _ N q' c' FI) as (k & K & _). rewrite K, (A c' k K) in F. discriminate.
  - pose proof (find_none _ _ FI (q, c) I) as Q. cbn in Q. assert (key_eqb q q = true) by (apply key_eqb_eq; reflexivity). congruence.
Qed.
Lemma neat_step fp x e y : inv x -> neat x -> step fp x e = Some y -> tidy fp x [e] -> neat y.
Proof.
  intros IV N H TD. destruct e as [j cf kd r t|j|c'| |c' ev| |j t n|j d' w|j|c' w bad|c' ok|r rd];
    try (apply (neat_stays x); [exact N|]; apply (stays_step fp x _ y IV H); discriminate).
  - cbn [step] in H. injection H as <-. cbn [tidy] in TD. destruct TD as [TD _].
    assert (AL : forall c k, x_chans x c = Some k -> alive k = true).
    { intros c k K. destruct (TD c) as (i & l & L & C); [congruence|]. destruct (i_att _ IV _ _ _ L C) as (k' & K' & I). rewrite K in K'. injection K' as <-. unfold alive. destruct (k_links k); [contradiction|reflexivity]. }
    unfold open_link. destruct (x_links x j) as [lj|]; [exact N|]. destruct (cf_local cf && negb t); [exact N|]. destruct (is_nil (cf_name cf)); [apply (neat_stays x); [exact N|apply stays_chans; reflexivity]|]. cbv zeta.
    set (pr := match find_chan (request cf) x with Some c0 => (x, c0) | None => _ end).
    assert (Q : neat (fst pr)).
    { unfold pr. destruct (find_chan (request cf) x) as [c0|] eqn:F; [exact N|]. cbn [fst]. pose proof (find_chan_neat x _ N AL F) as NI.
      assert (EX : existsb (fun p => key_eqb (request cf) (fst p)) (x_keys x) = false).
      { destruct (existsb _ _) eqn:X; [|reflexivity]. apply existsb_exists in X. destruct X as (p & P & E). apply key_eqb_eq in E. exfalso. apply NI. rewrite E. apply in_map, P. }
      rewrite EX. assert (Q : neat (set_keys (x_keys x ++ [(request cf, x_nc x)]) (S (x_nc x)) (set_chan (x_nc x) (Some (new_chan (request cf))) x))).
      { constructor; cbn.
        - intros c k K. apply in_app_iff. destruct (Nat.eqb_spec c (x_nc x)) as [-> |NE]; [injection K as <-; right; left; reflexivity|left; exact (n_in _ N c k K)].
        - intros q c I. apply in_app_iff in I. destruct I as [I|[I|[]]].
          + destruct (n_out _ N q c I) as (k & K & E). exists k. pose proof (i_nc _ IV _ _ K). destruct (Nat.eqb_spec c (x_nc x)); [lia|]. split; assumption.
          + injection I as <- <-. rewrite Nat.eqb_refl. eexists. split; reflexivity.
        - rewrite map_app. cbn. pose proof (n_one _ N) as ND. revert ND NI. generalize (map fst (x_keys x)) as l. induction l as [|a l IH]; intros ND NI; cbn; [constructor; [intros []|constructor]|]. inversion ND; subst.
          constructor; [rewrite in_app_iff; cbn; intros [B|[B|[]]]; [contradiction|apply NI; left; congruence]|apply IH; [assumption|intros B; apply NI; right; exact B]]. }
      destruct (x_running x); [exact (neat_stays _ _ Q (stays_subscribe _ _))|exact Q]. }
    destruct pr as [x1 c1]. cbn [fst] in Q. destruct (x_chans x1 c1) as [ch|] eqn:CH; [|exact Q]. set (l' := if k_conn ch then type_change ch _ else _).
    assert (Q2 : neat (set_link j (Some l') (set_chan c1 (Some (k_with_links (place x1 (cf_order cf) j (k_links ch)) true ch)) x1))).
    { apply (neat_stays x1); [exact Q|]. apply (stays_trans _ (set_chan c1 (Some (k_with_links (place x1 (cf_order cf) j (k_links ch)) true ch)) x1)); [apply (stays_set c1 ch); [exact CH|reflexivity]|apply stays_chans; reflexivity]. }
    destruct (if k_conn ch then scans l' else None); [|exact Q2]. apply (neat_stays _ _ Q2), stays_chans; reflexivity.
  - cbn [step] in H. injection H as <-. unfold free_chan. destruct (x_chans x c') as [k|] eqn:K; [|exact N]. destruct (alive k); [exact N|].
    assert (U : forall q c, In (q, c) (x_keys x) -> q = k_key k -> c = c').
    { intros q c I ->. pose proof (n_in _ N c' k K) as I'. pose proof (n_one _ N) as ND. clear -I I' ND. induction (x_keys x) as [|p l IH]; [contradiction|]. cbn in ND. inversion ND; subst. destruct I as [-> |I], I' as [I'|I'].
      - congruence.
      - exfalso. apply H1. apply (in_map fst) in I'. exact I'.
      - subst p. exfalso. apply H1. apply (in_map fst) in I. exact I.
      - apply IH; assumption. }
    constructor; cbn.
    + intros c m M. destruct (Nat.eqb_spec c c') as [-> |NE]; [discriminate|]. apply filter_In. split; [exact (n_in _ N c m M)|]. cbn. apply negb_true_iff. destruct (key_eqb _ _) eqn:E; [|reflexivity]. apply key_eqb_eq in E. exfalso. apply NE. apply (U (k_key m) c); [exact (n_in _ N c m M)|congruence].
    + intros q c I. apply filter_In in I. destruct I as [I E]. destruct (n_out _ N q c I) as (m & M & F). exists m. destruct (Nat.eqb_spec c c') as [-> |NE]; [|split; assumption]. exfalso. rewrite K in M. injection M as <-. cbn in E. apply negb_true_iff in E. assert (key_eqb (k_key k) q = true) by (apply key_eqb_eq; exact F). congruence.
    + pose proof (n_one _ N) as ND. clear -ND. induction (x_keys x) as [|p l IH]; [constructor|]. cbn in *. inversion ND; subst. destruct (negb _); [|apply IH; assumption]. cbn. constructor; [|apply IH; assumption]. intros I. apply H1. apply in_map_iff in I. destruct I as (q & E & I). apply filter_In in I. rewrite <- E. apply in_map. tauto.
Qed.
Lemma neat_run fp h : forall x y, inv x -> neat x -> tidy fp x h -> run fp x h = Some y -> neat y.
Proof.
  induction h as [|e r IH]; intros x y IV N T H; cbn [run tidy] in *; [injection H as <-; exact N|]. destruct T as [T1 T2]. destruct (step fp x e) as [z|] eqn:Z; [|discriminate].
  apply (IH z y (inv_step _ _ _ _ IV Z)); [|exact T2|exact H]. apply (neat_step fp x e z IV N Z). cbn [tidy]. split; [exact T1|]. rewrite Z. exact Logic.I.
Qed.
Lemma neat_start : neat start.
Proof. constructor; cbn; [discriminate|contradiction|constructor]. Qed.
Lemma shared fp h x i j c d l m : reached fp h x -> tidy fp start h -> x_links x i = Some l -> l_chan l = Some c -> x_links x j = Some m -> l_chan m = Some d ->
  request (l_conf l) = request (l_conf m) -> c = d.
Proof.
  intros R T L C M D E. pose proof (inv_reached _ _ _ R) as IV. pose proof (neat_run fp h start x inv_start neat_start T R) as N.
  destruct (i_att _ IV _ _ _ L C) as (k & K & _). destruct (i_att _ IV _ _ _ M D) as (q & Q & _). destruct (i_key _ IV _ _ _ _ L C K) as [E1 _]. destruct (i_key _ IV _ _ _ _ M D Q) as [E2 _].
  pose proof (n_in _ N c k K) as I1. pose proof (n_in _ N d q Q) as I2. rewrite E1, E in I1. rewrite E2 in I2. pose proof (n_one _ N) as ND. clear -I1 I2 ND. induction (x_keys x) as [|p r IH]; [contradiction|]. cbn in ND. inversion ND; subst. destruct I1 as [-> |I1], I2 as [I2|I2].
  - congruence.
  - exfalso. apply H1. apply (in_map fst) in I2. exact I2.
  - subst p. exfalso. apply H1. apply (in_map fst) in I1. exact I1.
  - apply IH; assumption.
Qed.

(** ** Subscriptions *)
Definition heard (x : ctx) : Prop := x_running x = true -> forall c k, x_chans x c = Some k -> k_links k <> [] -> k_open k = true.
(** running is kept, and a channel with links had links and was open *)
Definition less (x y : ctx) : Prop := x_running y = x_running x /\ forall c k, x_chans y c = Some k -> exists m, x_chans x c = Some m /\ k_open k = k_open m /\ (k_links k <> [] -> k_links m <> []).
Lemma heard_less x y : heard x -> less x y -> heard y.
Proof. intros H [A B] R c k K L. destruct (B c k K) as (m & M & E & F). rewrite E. apply (H (eq_trans (eq_sym A) R) c m M). exact (F L). Qed.
Lemma less_refl x : less x x.
Proof. split; [reflexivity|]. intros c k K. exists k. tauto. Qed.
Lemma less_chans x y : x_running y = x_running x -> x_chans y = x_chans x -> less x y.
Proof. intros A B. split; [exact A|]. intros c k K. rewrite B in K. exists k. tauto. Qed.
Lemma less_set c k m x : x_chans x c = Some k -> k_open m = k_open k -> (k_links m <> [] -> k_links k <> []) -> less x (set_chan c (Some m) x).
Proof. intros E F G. split; [reflexivity|]. intros d q Q. cbn in Q. destruct (Nat.eqb_spec d c) as [-> |]; [injection Q as <-; exists k; tauto|exists q; tauto]. Qed.
Lemma less_trans x y z : less x y -> less y z -> less x z.
Proof. intros [A B] [C D]. split; [congruence|]. intros c k K. destruct (D c k K) as (m & M & E & F). destruct (B c m M) as (n & N & G & H). exists n. split; [exact N|]. split; [congruence|]. tauto. Qed.
Lemma less_core x y : core x y -> less x y.
Proof. intros C. split; [apply C|]. intros c k K. destruct (core_chan _ _ _ _ C K) as (m & M & Q). destruct (kcore_inj _ _ Q) as (_ & E & _ & _ & _ & _ & L & _). exists m. split; [exact M|]. split; [exact E|]. rewrite L. tauto. Qed.
Lemma heard_subscribe c x : heard x -> heard (subscribe c x).
Proof.
  intros H. unfold subscribe. destruct (x_chans x c) as [k|] eqn:K; [|exact H]. intros R d m M L. cbn in M. destruct (Nat.eqb_spec d c) as [-> |]; [injection M as <-; reflexivity|exact (H R d m M L)].
Qed.
Lemma init_open ks : forall x c k, let y := fold_left (fun x (p : key * nat) => match x_chans x (snd p) with Some k => if alive k then subscribe (snd p) x else x | None => x end) ks x in
  x_chans y c = Some k -> exists m, x_chans x c = Some m /\ k_links k = k_links m /\ (k_open k = k_open m \/ k_open k = true) /\ (k_links m <> [] -> In c (map snd ks) -> k_open k = true).
Proof.
  induction ks as [|p ks IH]; intros x c k y H; [exists k; cbn in *; tauto|]. cbn [fold_left] in y. destruct (IH _ c k H) as (m & M & A & B & C). clear IH H y.
  destruct (x_chans x (snd p)) as [q|] eqn:Q; [|exists m; split; [exact M|]; split; [exact A|]; split; [exact B|]; intros L [E|E]; [subst c; congruence|exact (C L E)]].
  destruct (alive q) eqn:AL.
  - unfold subscribe in M. rewrite Q in M. cbn in M. destruct (Nat.eqb_spec c (snd p)) as [-> |N].
    + injection M as <-. exists q. split; [exact Q|]. cbn in A, B, C. assert (k_open k = true) by tauto. tauto.
    + exists m. split; [exact M|]. split; [exact A|]. split; [exact B|]. intros L [E|E]; [congruence|exact (C L E)].
  - exists m. split; [exact M|]. split; [exact A|]. split; [exact B|]. intros L [E|E]; [|exact (C L E)]. subst c. rewrite Q in M. injection M as <-. unfold alive in AL. destruct (k_links q); [contradiction|discriminate].
Qed.
Lemma heard_step fp x e y : inv x -> neat x -> heard x -> step fp x e = Some y -> heard y.
Proof.
  intros IV NT HE H. destruct e as [j cf kd r t|j|c'| |c' ev| |j t n|j d' w|j|c' w bad|c' ok|r rd]; cbn [step] in H; try (injection H as <-).
  - unfold open_link. destruct (x_links x j) as [lj|]; [exact HE|]. destruct (cf_local cf && negb t); [exact HE|]. destruct (is_nil (cf_name cf)); [exact HE|]. cbv zeta.
    set (pr := match find_chan (request cf) x with Some c0 => (x, c0) | None => _ end).
    assert (Q : heard (fst pr) /\ (x_running (fst pr) = true -> forall k, x_chans (fst pr) (snd pr) = Some k -> k_open k = true)).
    { unfold pr. destruct (find_chan (request cf) x) as [c0|] eqn:F.
      - split; [exact HE|]. intros R k K. cbn in K. apply (HE R c0 k K). unfold find_chan in F. destruct (find _ _) as [[q' c']|]; [|discriminate]. destruct (x_chans x c') as [m|] eqn:M; [|discriminate]. destruct (alive m) eqn:AL; [|discriminate]. injection F as ->. rewrite K in M. injection M as <-. unfold alive in AL. destruct (k_links k); discriminate.
      - cbn [fst snd]. set (z := set_keys _ _ _). assert (Z : forall c k, x_chans z c = Some k -> c <> x_nc x -> x_chans x c = Some k). { intros c k K N. cbn in K. destruct (Nat.eqb_spec c (x_nc x)); [contradiction|exact K]. }
        assert (Z0 : x_chans z (x_nc x) = Some (new_chan (request cf))) by (cbn; rewrite Nat.eqb_refl; reflexivity).
        destruct (x_running x) eqn:RU.
        + assert (S0 : forall c k, x_chans (subscribe (x_nc x) z) c = Some k -> c = x_nc x /\ k_open k = true \/ x_chans x c = Some k).
          { intros c k K. unfold subscribe in K. rewrite Z0 in K. cbn in K. destruct (Nat.eqb_spec c (x_nc x)) as [-> |N]; [injection K as <-; left; split; reflexivity|right; exact K]. }
          split; [intros _ c k K L; destruct (S0 c k K) as [[_ O]|O]; [exact O|exact (HE RU c k O L)]|]. intros _ k K. destruct (S0 _ k K) as [[_ O]|O]; [exact O|]. pose proof (i_nc _ IV _ _ O). lia.
        + split; intros R; exfalso; cbn in R; congruence. }
    destruct pr as [x1 c1]. cbn [fst snd] in Q. destruct Q as [Q1 Q2]. destruct (x_chans x1 c1) as [ch|] eqn:CH; [|exact Q1]. set (l' := if k_conn ch then type_change ch _ else _).
    assert (Q3 : heard (set_link j (Some l') (set_chan c1 (Some (k_with_links (place x1 (cf_order cf) j (k_links ch)) true ch)) x1))).
    { intros R d m M L. cbn in M, R. destruct (Nat.eqb_spec d c1) as [-> |]; [injection M as <-; exact (Q2 R ch eq_refl)|exact (Q1 R d m M L)]. }
    destruct (if k_conn ch then scans l' else None); exact Q3.
  - apply (heard_less x); [exact HE|]. unfold remove_link. destruct (x_links x j) as [lj|]; [|apply less_refl]. cbv zeta. destruct (l_chan lj) as [c1|]; [|apply less_chans; reflexivity]. destruct (x_chans x c1) as [k1|] eqn:K1; [|apply less_chans; reflexivity].
    apply (less_trans _ (set_link j None x)); [apply less_chans; reflexivity|]. apply (less_set c1 k1); [exact K1|reflexivity|]. cbn. intros A B. rewrite B in A. apply A. reflexivity.
  - unfold free_chan. destruct (x_chans x c') as [k|]; [|exact HE]. destruct (alive k); [exact HE|]. intros R d m M L. cbn in M. destruct (Nat.eqb d c'); [discriminate|exact (HE R d m M L)].
  - unfold init_links. destruct (x_running x) eqn:RU; [exact HE|]. intros _ c k K L. pose proof (init_open (x_keys x) (set_running x) c k K) as (m & M & A & _ & B). cbn in M. rewrite A in L. apply (B L). apply in_map_iff. exists (k_key m, c). split; [reflexivity|]. exact (n_in _ NT c m M).
  - apply (heard_less x); [exact HE|]. unfold net. destruct (x_chans x c') as [k|] eqn:K; [|apply less_refl]. destruct (k_open k) eqn:O; [|apply less_refl]. cbv zeta.
    apply (less_trans _ (set_chan c' (Some (k_with_events (k_events k ++ [ev]) false k)) x)); [apply (less_set c' k); [exact K|reflexivity|exact (fun h => h)]|]. destruct (_ && _); apply less_chans; reflexivity.
  - apply (heard_less x); [exact HE|]. unfold work. destruct (x_tasks x) as [|[t|t] r] eqn:T; [apply less_refl| |].
    + destruct (x_chans x t) as [k|] eqn:K; [|unfold run_chan; cbn; rewrite K; apply less_chans; reflexivity]. destruct (alive k) eqn:AL; [|unfold run_chan; cbn; rewrite K, AL; apply less_chans; reflexivity].
      destruct (k_events k) as [|e es] eqn:EV.
      { unfold run_chan. cbn. rewrite K, AL, EV. cbn [negb]. apply (less_trans _ (set_tasks r x)); [apply less_chans; reflexivity|]. apply (less_set t k); [exact K|reflexivity|exact (fun h => h)]. }
      assert (NE : k_links k <> []) by (unfold alive in AL; destruct (k_links k); discriminate). rewrite (run_chan_tasks t x k e es r K NE EV). pose proof (run_chan_event t x k e es IV K NE EV) as H. cbv zeta in H. destruct H as (A1 & _ & _ & _ & _ & _ & _ & A8).
      split; [exact A8|]. intros c q Q. cbn [set_tasks x_chans] in Q. rewrite A1 in Q. destruct (Nat.eqb_spec c t) as [-> |N]; [|exists q; tauto]. injection Q as <-. exists k. split; [exact K|]. cbn. destruct (took_rest e (k_with_events es (k_notify k) k)) as (_ & -> & _ & _ & -> & _). split; [reflexivity|exact (fun h => h)].
    + apply (less_trans _ (set_tasks r x)); [apply less_chans; reflexivity|]. apply less_core, core_after_put.
  - eapply heard_less; [exact HE|]. eapply less_core, core_get; exact H.
  - eapply heard_less; [exact HE|]. eapply less_core, core_put_value; exact H.
  - eapply heard_less; [exact HE|]. eapply less_core, core_forward; exact H.
  - eapply heard_less; [exact HE|]. apply less_core, core_build.
  - eapply heard_less; [exact HE|]. apply less_core, core_done.
  - eapply heard_less; [exact HE|]. apply less_core, core_set_rec.
Qed.
Lemma heard_run fp h : forall x y, inv x -> neat x -> heard x -> tidy fp x h -> run fp x h = Some y -> heard y.
Proof.
  induction h as [|e r IH]; intros x y IV N HE T H; cbn [run tidy] in *; [injection H as <-; exact HE|]. destruct T as [T1 T2]. destruct (step fp x e) as [z|] eqn:Z; [|discriminate].
  apply (IH z y (inv_step _ _ _ _ IV Z)); [|exact (heard_step _ _ _ _ IV N HE Z)|exact T2|exact H]. apply (neat_step fp x e z IV N Z). cbn [tidy]. split; [exact T1|]. rewrite Z. exact Logic.I.
Qed.
Lemma subscribed_all fp h x i c : reached fp h x -> tidy fp start h -> x_running x = true -> attached x i c -> subscribed x c.
Proof.
  intros R T RU (l & L & C). pose proof (inv_reached _ _ _ R) as IV. destruct (i_att _ IV _ _ _ L C) as (k & K & I). exists k. split; [exact K|].
  assert (H0 : heard start) by (intros Q; discriminate Q). apply (heard_run fp h start x inv_start neat_start H0 T R RU c k K). intros E. rewrite E in I. contradiction.
Qed.
