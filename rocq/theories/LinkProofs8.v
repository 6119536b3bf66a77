(** Links: writing. *)
From Coq Require Import String ZArith List Bool Arith Lia Sorted.
From Verif Require Import Base BaseProofs WireModel TypeModel TextModel ValueModel CopyModel GroupModel LinkModel LinkSpec LinkProofs2 LinkProofs3 LinkProofs4 LinkProofs5 LinkProofs6 LinkProofs7.
Import ListNotations.

Definition used (l : link) : link := match l_scratch l with Some d => l_with_put None (Some d) l | None => l end.
Lemma put_links c f x k i : x_chans x c = Some k -> x_links (put c f x) i = if existsb (Nat.eqb i) (k_links k) then option_map used (x_links x i) else x_links x i.
Proof. intros E. unfold put. rewrite E. cbv zeta. destruct (f || _); reflexivity. Qed.
Lemma put_links_none c f x : x_chans x c = None -> put c f x = x.
Proof. intros E. unfold put. rewrite E. reflexivity. Qed.
Lemma put_chans c f x d : d <> c -> x_chans (put c f x) d = x_chans x d.
Proof. intros N. unfold put. destruct (x_chans x c); [|reflexivity]. cbv zeta. destruct (f || _); cbn; [|reflexivity]. destruct (Nat.eqb_spec d c); [contradiction|reflexivity]. Qed.
Lemma put_chan c f x k : x_chans x c = Some k ->
  exists k', x_chans (put c f x) c = Some k' /\ k_links k' = k_links k /\ k_after k' = k_after k /\ (k' = k \/ exists op, k_put k' = Some op /\ po_built op = false).
Proof.
  intros E. unfold put. rewrite E. cbv zeta. destruct (f || _); cbn.
  - rewrite Nat.eqb_refl. eexists. split; [reflexivity|]. split; [reflexivity|]. split; [reflexivity|]. right. eexists. split; reflexivity.
  - exists k. split; [exact E|]. split; [reflexivity|]. split; [reflexivity|left; reflexivity].
Qed.

(** a value which waits *)
Lemma pending_to x y i c d : pending x i c d ->
  (forall l, x_links x i = Some l -> l_chan l = Some c -> l_scratch l = None -> l_queue l = Some d -> exists l', x_links y i = Some l' /\ l_chan l' = Some c /\ l_scratch l' = None /\ l_queue l' = Some d) ->
  (forall k op, x_chans x c = Some k -> k_put k = Some op -> po_built op = false -> exists k' op', x_chans y c = Some k' /\ k_put k' = Some op' /\ po_built op' = false) -> pending y i c d.
Proof.
  intros (l & k & op & A & B & C & D & E & F & G) HL HK. destruct (HL l A B D E) as (l' & A' & B' & D' & E'). destruct (HK k op C F G) as (k' & op' & C' & F' & G').
  exists l', k', op'. tauto.
Qed.
Lemma keep_link {x y : ctx} {i c d} : x_links y i = x_links x i ->
  forall l, x_links x i = Some l -> l_chan l = Some c -> l_scratch l = None -> l_queue l = Some d -> exists l', x_links y i = Some l' /\ l_chan l' = Some c /\ l_scratch l' = None /\ l_queue l' = Some d.
Proof. intros E l A B C D. exists l. rewrite E. tauto. Qed.
Lemma keep_chan {x y : ctx} {c} : (forall k, x_chans x c = Some k -> exists k', x_chans y c = Some k' /\ k_put k' = k_put k) ->
  forall k op, x_chans x c = Some k -> k_put k = Some op -> po_built op = false -> exists k' op', x_chans y c = Some k' /\ k_put k' = Some op' /\ po_built op' = false.
Proof. intros E k op A B C. destruct (E k A) as (k' & A' & B'). exists k', op. rewrite B'. tauto. Qed.
Lemma same_chan {x y : ctx} {c} : x_chans y c = x_chans x c -> forall k, x_chans x c = Some k -> exists k', x_chans y c = Some k' /\ k_put k' = k_put k.
Proof. intros E k A. exists k. rewrite E. split; [exact A|reflexivity]. Qed.
Lemma pending_same x y i c d : pending x i c d -> x_links y i = x_links x i -> x_chans y c = x_chans x c -> pending y i c d.
Proof. intros P A B. apply (pending_to x y i c d P); [apply keep_link, A|apply keep_chan, same_chan, B]. Qed.
Lemma pending_put x i c d c' f : pending x i c d -> pending (put c' f x) i c d.
Proof.
  intros P. apply (pending_to x _ i c d P).
  - intros l A B C D. destruct (x_chans x c') as [k|] eqn:K; [|rewrite put_links_none by exact K; exists l; tauto].
    rewrite (put_links c' f x k i K), A. cbn [option_map]. unfold used. rewrite C. destruct (existsb _ _); exists l; tauto.
  - intros k op A B C. destruct (Nat.eq_dec c c') as [-> |N].
    + destruct (put_chan c' f x k A) as (k' & A' & _ & _ & [-> |(op' & B' & C')]); [exists k, op; tauto|exists k', op'; tauto].
    + exists k, op. rewrite put_chans by congruence. tauto.
Qed.
Lemma complete_same r x : x_links (complete r x) = x_links x /\ x_chans (complete r x) = x_chans x.
Proof. unfold complete. destruct (r_pact _); split; reflexivity. Qed.
Lemma completes_same rs : forall x, x_links (fold_left (fun x r => complete r x) rs x) = x_links x /\ x_chans (fold_left (fun x r => complete r x) rs x) = x_chans x.
Proof.
  induction rs as [|r rs IH]; intros x; [split; reflexivity|]. cbn. destruct (IH (complete r x)) as [-> ->]. apply complete_same.
Qed.
Lemma subscribe_links c x : x_links (subscribe c x) = x_links x.
Proof. unfold subscribe. destruct (x_chans x c); reflexivity. Qed.
Lemma subscribe_chan c x d k : x_chans x d = Some k -> exists k', x_chans (subscribe c x) d = Some k' /\ k_put k' = k_put k.
Proof.
  intros E. unfold subscribe. destruct (x_chans x c) as [m|] eqn:M; [|exists k; split; [exact E|reflexivity]]. cbn.
  destruct (Nat.eqb_spec d c) as [-> |N]; [rewrite E in M; injection M as ->; eexists; split; reflexivity|exists k; split; [exact E|reflexivity]].
Qed.
Lemma init_same ks : forall x, let f := fun x (p : key * nat) => match x_chans x (snd p) with Some k => if alive k then subscribe (snd p) x else x | None => x end in
  x_links (fold_left f ks x) = x_links x /\ forall d k, x_chans x d = Some k -> exists k', x_chans (fold_left f ks x) d = Some k' /\ k_put k' = k_put k.
Proof.
  induction ks as [|p ks IH]; intros x f; [split; [reflexivity|]; intros d k E; exists k; split; [exact E|reflexivity]|].
  cbn [fold_left]. destruct (IH (f x p)) as [A B]. fold f in A, B.
  assert (C : x_links (f x p) = x_links x /\ forall d k, x_chans x d = Some k -> exists k', x_chans (f x p) d = Some k' /\ k_put k' = k_put k).
  { unfold f. destruct (x_chans x (snd p)) as [m|]; [destruct (alive m)|]; try (split; [reflexivity|]; intros d k E; exists k; split; [exact E|reflexivity]).
    split; [apply subscribe_links|]. intros d k. apply subscribe_chan. }
  destruct C as [C D]. split; [rewrite A; exact C|]. intros d k E. destruct (D d k E) as (k1 & E1 & P1). destruct (B d k1 E1) as (k2 & E2 & P2). exists k2. split; [exact E2|congruence].
Qed.
Lemma retyped_put e k i l : (forall s ns, e = MDisconnect s ns -> existsb (Nat.eqb i) (k_links k) = false) ->
  l_chan (retyped e k i l) = l_chan l /\ l_scratch (retyped e k i l) = l_scratch l /\ l_queue (retyped e k i l) = l_queue l.
Proof.
  intros H. unfold retyped. destruct (existsb _ _) eqn:X; [|repeat split; reflexivity]. destruct e as [u|s ns|]; [|discriminate (H s ns eq_refl)|repeat split; reflexivity].
  destruct (k_conn k); [repeat split; reflexivity|]. unfold type_change. cbv zeta. match goal with |- context [match ?a ?b with Some n => if _ then _ else _ | None => _ end] => destruct (a b) as [n|] end; [destruct (_ =? _)%Z|]; repeat split; reflexivity.
Qed.
Lemma took_put e k : (forall s ns, e <> MDisconnect s ns) -> k_put (took e k) = k_put k.
Proof. intros H. unfold took. destruct e as [u|s ns|]; [destruct (k_conn k); reflexivity|destruct (H s ns eq_refl)|reflexivity]. Qed.

Lemma pending_work fp x i c d : inv x -> pending x i c d -> spares fp x i c EWork -> pending (work x) i c d.
Proof.
  intros IV P S. unfold spares in S. cbn [step] in S.
  destruct (x_tasks x) as [|[t|t] r] eqn:T.
  - replace (work x) with x by (unfold work; rewrite T; reflexivity). exact P.
  - destruct (work_cases x IV) as [[E _]|[(t' & r' & TT & T2 & W & W2)|(e0 & r' & k & e & es & TT & E & NE & EV & W)]]; [congruence| |].
    + (* no event *)
      unfold work. rewrite T. unfold run_chan. cbn [set_tasks x_chans]. destruct (x_chans x t) as [k|] eqn:K; [|exact (pending_same x _ i c d P eq_refl eq_refl)].
      destruct (alive k) eqn:AL; cbn [negb]; [|exact (pending_same x _ i c d P eq_refl eq_refl)]. destruct (k_events k) as [|e es] eqn:EV.
      * apply (pending_to x _ i c d P); [apply keep_link; reflexivity|]. apply keep_chan. intros k0 K0. cbn. destruct (Nat.eqb_spec c t) as [-> |N]; [|exists k0; split; [exact K0|reflexivity]].
        rewrite K in K0. injection K0 as <-. eexists. split; reflexivity.
      * exfalso. assert (Q := q_evs _ _ W t). unfold work in Q. rewrite T in Q.
        assert (NE : k_links k <> []) by (unfold alive in AL; destruct (k_links k); [discriminate|discriminate]).
        rewrite (run_chan_tasks t x k e es r K NE EV) in Q. unfold evs in Q. cbn [set_tasks x_chans] in Q.
        pose proof (run_chan_event t x k e es IV K NE EV) as H. cbv zeta in H. destruct H as (A1 & _). rewrite A1, Nat.eqb_refl, K in Q. cbn [k_with_scan k_events] in Q.
        destruct (took_rest e (k_with_events es (k_notify k) k)) as (_ & _ & R & _). rewrite R, EV in Q. cbn in Q. apply (f_equal (@length _)) in Q. cbn in Q. lia.
    + cbv zeta in W. destruct W as (A1 & A2 & _ & _ & _ & A6 & _).
      assert (ND : forall s ns, e = MDisconnect s ns -> e0 <> c). { intros s ns -> ->. exact (S _ s ns _ eq_refl A6). }
      apply (pending_to x _ i c d P).
      * intros l L1 L2 L3 L4. rewrite A2, L1. cbn [option_map]. eexists. split; [reflexivity|].
        destruct (retyped_put e (k_with_events es (k_notify k) k) i l) as (-> & -> & ->); [|tauto].
        intros s ns Q. cbn [k_with_events k_links]. destruct (existsb (Nat.eqb i) (k_links k)) eqn:X; [|reflexivity]. apply existsb_in in X. destruct (i_back _ IV _ _ _ E X) as (l2 & Y1 & Y2). rewrite L1 in Y1. injection Y1 as <-. rewrite L2 in Y2. injection Y2 as Y2. destruct (ND s ns Q). symmetry. exact Y2.
      * apply keep_chan. intros k0 K0. rewrite A1. destruct (Nat.eqb_spec c e0) as [<- |N]; [|exists k0; split; [exact K0|reflexivity]].
        rewrite E in K0. injection K0 as <-. eexists. split; [reflexivity|]. cbn [k_with_scan k_put]. rewrite took_put; [reflexivity|]. intros s ns Q. exact (ND s ns Q eq_refl).
  - unfold work. rewrite T. unfold after_put. cbn [set_tasks x_chans]. destruct (x_chans x t) as [k|] eqn:K; [|exact (pending_same x _ i c d P eq_refl eq_refl)].
    destruct (alive k); [|exact (pending_same x _ i c d P eq_refl eq_refl)].
    match goal with |- pending (fold_left _ ?rs ?z) _ _ _ => destruct (completes_same rs z) as [A B] end.
    apply (pending_to x _ i c d P); [apply keep_link; rewrite A; reflexivity|]. apply keep_chan. intros k0 K0. rewrite B. cbn. destruct (Nat.eqb_spec c t) as [-> |N]; [|exists k0; split; [exact K0|reflexivity]].
    rewrite K in K0. injection K0 as <-. eexists. split; reflexivity.
Qed.
Lemma pending_put_done x i c d c' ok : pending x i c d -> c' <> c -> pending (put_done c' ok x) i c d.
Proof.
  intros P N. unfold put_done. destruct (x_chans x c') as [k|] eqn:K; [|exact P]. cbv zeta.
  assert (A : pending (set_chan c' (Some (k_with_put None (k_after k) k)) x) i c d). { apply (pending_same x _ i c d P); [reflexivity|]. cbn. destruct (Nat.eqb_spec c c'); [congruence|reflexivity]. }
  assert (B : pending (if ok then put c' false (set_chan c' (Some (k_with_put None (k_after k) k)) x) else set_chan c' (Some (k_with_put None (k_after k) k)) x) i c d). { destruct ok; [apply pending_put|]; exact A. }
  destruct (is_nil (k_after k)); [exact B|]. exact (pending_same _ _ i c d B eq_refl eq_refl).
Qed.
Lemma build_items_in w bad ls : forall a b ok i, build_items w bad ls = (a, b, ok) -> In i b -> exists l, In (i, l) ls.
Proof.
  induction ls as [|[j l] ls IH]; intros a b ok i H I; cbn [build_items] in H; [injection H as <- <- <-; contradiction|].
  destruct (l_queue l) as [d|]; [|destruct (IH _ _ _ _ H I) as (m & M); exists m; right; exact M].
  destruct (item w l d) as [[p it]|].
  - destruct (bad p); [injection H as <- <- <-; destruct I as [<- |[]]; exists l; left; reflexivity|].
    destruct (build_items w bad ls) as [[a' b'] ok'] eqn:B. injection H as <- <- <-. destruct I as [<- |I]; [exists l; left; reflexivity|]. destruct (IH _ _ _ _ eq_refl I) as (m & M). exists m. right. exact M.
  - destruct (build_items w bad ls) as [[a' b'] ok'] eqn:B. injection H as <- <- <-. destruct I as [<- |I]; [exists l; left; reflexivity|]. destruct (IH _ _ _ _ eq_refl I) as (m & M). exists m. right. exact M.
Qed.
Lemma all_links_in x is i l : In (i, l) (all_links x is) <-> In i is /\ x_links x i = Some l.
Proof.
  unfold all_links. rewrite in_flat_map. split.
  - intros (j & J & H). destruct (x_links x j) as [m|] eqn:M; [|contradiction]. destruct H as [[= <- <-]|[]]. split; assumption.
  - intros [J M]. exists i. split; [exact J|]. rewrite M. left. reflexivity.
Qed.
Lemma pending_build x i c d c' w bad : inv x -> pending x i c d -> c' <> c -> pending (build c' w bad x) i c d.
Proof.
  intros IV P N. unfold build. destruct (x_chans x c') as [k|] eqn:K; [|exact P]. destruct (k_put k) as [op|]; [|exact P]. destruct (po_built op); [exact P|].
  destruct (build_items w bad (all_links x (k_links k))) as [[a b] ok] eqn:B. cbv zeta.
  assert (Q : pending (map_links (fun l => l_with_put (l_scratch l) None l) b x) i c d).
  { apply (pending_same x _ i c d P); [|reflexivity]. cbn. destruct (existsb (Nat.eqb i) b) eqn:X; [|reflexivity]. apply existsb_in in X.
    destruct (build_items_in _ _ _ _ _ _ _ B X) as (l & L). apply all_links_in in L. destruct L as [L _]. destruct (i_back _ IV _ _ _ K L) as (l2 & Y1 & Y2).
    destruct P as (l3 & _ & _ & Z1 & Z2 & _). rewrite Y1 in Z1. injection Z1 as <-. congruence. }
  destruct ok; [|apply pending_put_done; [exact Q|exact N]].
  apply (pending_same _ _ i c d Q); [reflexivity|]. cbn. destruct (Nat.eqb_spec c c'); [congruence|reflexivity].
Qed.
Lemma pending_step fp x i c d e y : inv x -> pending x i c d -> spares fp x i c e -> step fp x e = Some y -> pending y i c d.
Proof.
  intros IV P SP H. destruct P as (l & k & op & L1 & L2 & K & L3 & L4 & O1 & O2). assert (P : pending x i c d) by (exists l, k, op; tauto).
  destruct e as [j cf kd r t|j|c'| |c' ev| |j t n|j d' w|j|c' w bad|c' ok|r rd]; cbn [step] in H; try (injection H as <-).
  - (* open *)
    unfold open_link. destruct (x_links x j) as [lj|] eqn:LJ; [exact P|]. assert (NJ : i <> j) by congruence.
    destruct (cf_local cf && negb t); [exact P|]. destruct (is_nil (cf_name cf)). { apply (pending_same x _ i c d P); [cbn; destruct (Nat.eqb_spec i j); [contradiction|reflexivity]|reflexivity]. }
    cbv zeta. assert (CN : c < x_nc x) by exact (i_nc _ IV _ _ K).
    set (pr := match find_chan (request cf) x with Some c0 => (x, c0) | None => _ end).
    assert (Q : pending (fst pr) i c d).
    { unfold pr. destruct (find_chan (request cf) x); [exact P|]. cbn [fst].
      assert (Q : pending (set_keys (if existsb (fun p => key_eqb (request cf) (fst p)) (x_keys x) then x_keys x else x_keys x ++ [(request cf, x_nc x)]) (S (x_nc x)) (set_chan (x_nc x) (Some (new_chan (request cf))) x)) i c d).
      { apply (pending_same x _ i c d P); [reflexivity|]. cbn. destruct (Nat.eqb_spec c (x_nc x)); [lia|reflexivity]. }
      destruct (x_running x); [|exact Q]. apply (pending_to _ _ i c d Q); [apply keep_link; rewrite subscribe_links; reflexivity|]. apply keep_chan. intros k0. apply subscribe_chan. }
    destruct pr as [x1 c1]. cbn [fst] in Q. destruct (x_chans x1 c1) as [ch|] eqn:CH; [|exact Q].
    set (l' := if k_conn ch then type_change ch _ else _).
    assert (Q2 : pending (set_link j (Some l') (set_chan c1 (Some (k_with_links (place x1 (cf_order cf) j (k_links ch)) true ch)) x1)) i c d).
    { apply (pending_to x1 _ i c d Q); [apply keep_link; cbn; destruct (Nat.eqb_spec i j); [contradiction|reflexivity]|]. apply keep_chan. intros k0 K0. cbn. destruct (Nat.eqb_spec c c1) as [-> |N]; [|exists k0; split; [exact K0|reflexivity]].
      rewrite CH in K0. injection K0 as <-. eexists. split; reflexivity. }
    destruct (if k_conn ch then scans l' else None); [|exact Q2]. exact (pending_same _ _ i c d Q2 eq_refl eq_refl).
  - cbn [spares] in SP. unfold remove_link. destruct (x_links x j) as [lj|]; [|exact P]. cbv zeta.
    assert (Q : pending (set_link j None x) i c d). { apply (pending_same x _ i c d P); [|reflexivity]. cbn. destruct (Nat.eqb_spec i j); [congruence|reflexivity]. }
    destruct (l_chan lj) as [c1|]; [|exact Q]. destruct (x_chans x c1) as [k1|] eqn:K1; [|exact Q].
    apply (pending_to _ _ i c d Q); [apply keep_link; reflexivity|]. apply keep_chan. intros k0 K0. cbn in *. destruct (Nat.eqb_spec c c1) as [-> |N]; [|exists k0; split; [exact K0|reflexivity]].
    rewrite K1 in K0. injection K0 as <-. eexists. split; reflexivity.
  - unfold free_chan. destruct (x_chans x c') as [k1|] eqn:K1; [|exact P]. destruct (alive k1) eqn:AL; [exact P|].
    apply (pending_same x _ i c d P); [reflexivity|]. cbn. destruct (Nat.eqb_spec c c') as [-> |N]; [|reflexivity]. exfalso. destruct (i_att _ IV _ _ _ L1 L2) as (k2 & K2 & I2). rewrite K1 in K2. injection K2 as <-. unfold alive in AL. destruct (k_links k1); [contradiction|discriminate].
  - unfold init_links. destruct (x_running x); [exact P|]. pose proof (init_same (x_keys x) (set_running x)) as H. cbv zeta in H. destruct H as [A B].
    apply (pending_to x _ i c d P); [apply keep_link; rewrite A; reflexivity|]. apply keep_chan. exact (B c).
  - unfold net. destruct (x_chans x c') as [k1|] eqn:K1; [|exact P]. destruct (k_open k1); [|exact P]. cbv zeta.
    assert (Q : pending (set_chan c' (Some (k_with_events (k_events k1 ++ [ev]) false k1)) x) i c d).
    { apply (pending_to x _ i c d P); [apply keep_link; reflexivity|]. apply keep_chan. intros k0 K0. cbn. destruct (Nat.eqb_spec c c') as [-> |N]; [|exists k0; split; [exact K0|reflexivity]]. rewrite K1 in K0. injection K0 as <-. eexists. split; reflexivity. }
    destruct (_ && _); [exact (pending_same _ _ i c d Q eq_refl eq_refl)|exact Q].
  - apply (pending_work fp); assumption.
  - unfold get_value in H. destruct (x_links x j) as [lj|] eqn:LJ; [|injection H as <-; exact P]. destruct (chan_of j x) as [[[l1 c1] k1]|] eqn:CO; [|discriminate]. cbv zeta in H.
    destruct (chan_of_some _ _ _ _ _ CO) as (A1 & A2 & A3).
    destruct (valid k1); cbn [negb] in H; [|injection H as <-; exact (pending_same _ _ i c d P eq_refl eq_refl)].
    destruct (read_value fp k1 l1 t n) as [[[b m]|rr]|]; [|destruct rr; try discriminate; injection H as <-; exact (pending_same _ _ i c d P eq_refl eq_refl)|injection H as <-; exact (pending_same _ _ i c d P eq_refl eq_refl)].
    destruct (read_snap fp k1 l1) as [[[z e] s]|rr]; [|destruct rr; try discriminate; injection H as <-; exact (pending_same _ _ i c d P eq_refl eq_refl)]. injection H as <-.
    apply (pending_to x _ i c d P); [|apply keep_chan, same_chan; reflexivity]. intros l2 M1 M2 M3 M4. cbn. destruct (Nat.eqb_spec i j) as [-> |NJ]; [|exists l2; tauto].
    rewrite A1 in M1. injection M1 as <-. eexists. split; [reflexivity|]. cbn. tauto.
  - cbn [spares] in SP. unfold put_value in H. destruct (x_links x j) as [lj|] eqn:LJ; [|injection H as <-; exact P]. destruct (chan_of j x) as [[[l1 c1] k1]|] eqn:CO; [|discriminate].
    destruct (chan_of_some _ _ _ _ _ CO) as (A1 & A2 & A3). destruct (negb _ && negb (valid k1)). { injection H as <-. exact (pending_same _ _ i c d P eq_refl eq_refl). }
    assert (G : forall d1 a, pending (emit [OPut j SOk]
    (let x1 := set_link j (Some (l_with_put (Some d1) (l_queue l1) l1)) (set_chan c1 (Some (k_with_put (k_put k1) a k1)) x) in
     let x2 := if w then set_rec (l_rec l1) {| r_pact := true; r_passive := r_passive (x_recs x (l_rec l1)) |} x1 else x1 in
     if cf_defer (l_conf l1) then x2 else put c1 false x2)) i c d).
    { intros d1 a. cbv zeta. match goal with |- pending (emit _ ?z) _ _ _ => assert (Q : pending z i c d); [|exact (pending_same _ _ i c d Q eq_refl eq_refl)] end.
      assert (Q : pending (set_link j (Some (l_with_put (Some d1) (l_queue l1) l1)) (set_chan c1 (Some (k_with_put (k_put k1) a k1)) x)) i c d).
      { apply (pending_to x _ i c d P); [apply keep_link; cbn; destruct (Nat.eqb_spec i j); [congruence|reflexivity]|]. apply keep_chan. intros k0 K0. cbn. destruct (Nat.eqb_spec c c1) as [-> |N]; [|exists k0; split; [exact K0|reflexivity]]. rewrite A3 in K0. injection K0 as <-. eexists. split; reflexivity. }
      assert (Q2 : pending (if w then set_rec (l_rec l1) {| r_pact := true; r_passive := r_passive (x_recs x (l_rec l1)) |} (set_link j (Some (l_with_put (Some d1) (l_queue l1) l1)) (set_chan c1 (Some (k_with_put (k_put k1) a k1)) x)) else set_link j (Some (l_with_put (Some d1) (l_queue l1) l1)) (set_chan c1 (Some (k_with_put (k_put k1) a k1)) x)) i c d).
      { destruct w; [exact (pending_same _ _ i c d Q eq_refl eq_refl)|exact Q]. }
      destruct (cf_defer _); [exact Q2|apply pending_put, Q2]. }
    destruct d' as [[] z|s]; injection H as <-; try (apply G); exact (pending_same _ _ i c d P eq_refl eq_refl).
  - unfold forward in H. destruct (x_links x j) as [lj|] eqn:LJ; [|injection H as <-; exact P]. destruct (chan_of j x) as [[[l1 c1] k1]|] eqn:CO; [|discriminate].
    destruct (negb _ && negb (valid k1)); injection H as <-; [exact (pending_same _ _ i c d P eq_refl eq_refl)|apply pending_put, P].
  - apply pending_build; assumption.
  - unfold done. destruct (x_chans x c') as [k1|] eqn:K1; [|exact P]. destruct (k_put k1) as [op1|] eqn:O; [|exact P]. destruct (ok && negb (po_built op1)) eqn:B; [exact P|].
    apply pending_put_done; [exact P|]. intros ->. destruct ok; [|exact (SP eq_refl)]. rewrite K in K1. injection K1 as <-. rewrite O1 in O. injection O as <-. rewrite O2 in B. discriminate.
  - exact (pending_same _ _ i c d P eq_refl eq_refl).
Qed.
Lemma pending_run fp i c d h : forall x y, inv x -> pending x i c d -> calm fp i c x h -> run fp x h = Some y -> pending y i c d.
Proof.
  induction h as [|e r IH]; intros x y IV P C H; cbn [run calm] in *; [injection H as <-; exact P|]. destruct C as [S C].
  destruct (step fp x e) as [z|] eqn:Z; [|discriminate]. apply (IH z y); [exact (inv_step _ _ _ _ IV Z)|exact (pending_step _ _ _ _ _ _ _ IV P S Z)|exact C|exact H].
Qed.

(** ** A value is accepted *)
Lemma links_are x c k : inv x -> x_chans x c = Some k -> the_links x c (k_links k).
Proof.
  intros IV K. split; [exact (i_nodup _ IV _ _ K)|]. split; [|exact (i_sort _ IV _ _ K)]. intros i. split.
  - intros H. exact (i_back _ IV _ _ _ K H).
  - intros (l & L & C). destruct (i_att _ IV _ _ _ L C) as (k' & K' & H). rewrite K in K'. injection K' as <-. exact H.
Qed.
Lemma valid_latest x c k : inv x -> x_chans x c = Some k -> (valid k = true <-> latest (taken c (x_out x)) <> None).
Proof.
  intros IV K. pose proof (i_see _ IV _ _ K) as S. unfold valid. destruct (k_conn k).
  - destruct S as (r & v & w & R & W & _). rewrite R, W. split; [discriminate|]. intros _. destruct r; reflexivity.
  - rewrite S. cbn. split; [discriminate|congruence].
Qed.
Definition strong (p : proc) : bool := match p with PP | CP | CPP => true | _ => false end.
Definition never (p : proc) : bool := match p with NPP => true | _ => false end.
Definition todo (x : ctx) (k : lchan) : list (nat * link) := filter (fun p => match l_scratch (snd p) with Some _ => true | None => false end) (all_links x (k_links k)).
Definition mode_of (x : ctx) (k : lchan) (f : bool) : pmode :=
  if existsb (fun p => strong (cf_proc (l_conf (snd p)))) (todo x k) || f then MTrue else if existsb (fun p => never (cf_proc (l_conf (snd p)))) (todo x k) then MFalse else MPassive.
Lemma put_start c f x k : x_chans x c = Some k -> f || negb (is_nil (todo x k)) = true ->
  x_out (put c f x) = x_out x ++ [OStart c (mode_of x k f) (negb (is_nil (k_after k)))] /\
  x_chans (put c f x) c = Some (k_with_put (Some {| po_built := false; po_block := negb (is_nil (k_after k)); po_mode := mode_of x k f |}) (k_after k) k) /\ x_recs (put c f x) = x_recs x.
Proof. intros E H. unfold put. rewrite E. cbv zeta. unfold todo in H. rewrite H. cbn. rewrite Nat.eqb_refl. repeat split; reflexivity. Qed.
Definition procs (l : list (nat * link)) : list proc := map (fun p => cf_proc (l_conf (snd p))) l.
Lemma mode_option x k f : process_option (procs (todo x k)) f (mode_of x k f).
Proof.
  unfold mode_of. set (q := todo x k).
  assert (E : forall g, existsb (fun p : nat * link => g (cf_proc (l_conf (snd p)))) q = existsb g (procs q)).
  { intros g. clearbody q. induction q as [|p q IH]; [reflexivity|]. cbn. rewrite IH. reflexivity. }
  rewrite (E strong), (E never). destruct (existsb strong (procs q)) eqn:A.
  - cbn [orb]. apply existsb_exists in A. destruct A as (p & P & S). right. exists p. split; [exact P|]. destruct p; try discriminate; tauto.
  - assert (NS : forall p, In p (procs q) -> strong p = false). { intros p P. destruct (strong p) eqn:Q; [|reflexivity]. assert (existsb strong (procs q) = true) by (apply existsb_exists; exists p; tauto). congruence. }
    destruct f; [left; reflexivity|]. cbn [orb]. destruct (existsb never (procs q)) eqn:B.
    + apply existsb_exists in B. destruct B as (p & P & N). split; [reflexivity|]. split; [|destruct p; try discriminate; exact P]. intros p' P'. specialize (NS p' P'). destruct p'; try discriminate; tauto.
    + split; [reflexivity|]. intros p P. pose proof (NS p P). assert (never p = false). { destruct (never p) eqn:Q; [|reflexivity]. assert (existsb never (procs q) = true) by (apply existsb_exists; exists p; tauto). congruence. } destruct p; try discriminate; reflexivity.
Qed.
Lemma accept fp h x i c l d w : reached fp h x -> accepts x i c -> x_links x i = Some l -> cf_defer (l_conf l) = false -> writable d ->
  exists y m b ps, step fp x (EPut i d w) = Some y /\ pending y i c (kept d) /\ x_out y = x_out x ++ [OStart c m b; OPut i SOk] /\
    (forall p, In p ps <-> exists j, attached x j c /\ (j = i \/ deferred_put x j <> None) /\ p = proc_of x j) /\ process_option ps false m /\
    (b = true <-> w = true \/ waiting x c <> []) /\ (forall r, In r (waiting y c) <-> In r (waiting x c) \/ (w = true /\ r = l_rec l)) /\
    (w = true -> r_pact (x_recs y (l_rec l)) = true).
Proof.
  intros R (l' & L & LC & A) L0 DF WR. rewrite L in L0. injection L0 as ->. pose proof (inv_reached _ _ _ R) as IV. destruct (i_att _ IV _ _ _ L LC) as (k & K & IN).
  assert (V : negb (cf_retry (l_conf l)) && negb (valid k) = false). { destruct A as [-> |A]; [reflexivity|]. apply (valid_latest x c k IV K) in A. rewrite A. apply andb_false_r. }
  set (after := if w then (if existsb (Nat.eqb (l_rec l)) (k_after k) then k_after k else k_after k ++ [l_rec l]) else k_after k).
  set (l1 := l_with_put (Some (kept d)) (l_queue l) l). set (k1 := k_with_put (k_put k) after k).
  set (x1 := set_link i (Some l1) (set_chan c (Some k1) x)).
  set (x2 := if w then set_rec (l_rec l) {| r_pact := true; r_passive := r_passive (x_recs x (l_rec l)) |} x1 else x1).
  assert (ST : step fp x (EPut i d w) = Some (emit [OPut i SOk] (put c false x2))).
  { cbn [step]. unfold put_value. rewrite L. unfold chan_of. rewrite L, LC, K, V. unfold writable in WR. unfold kept in *. fold after. fold k1. rewrite DF. destruct d as [t z|s]; [|reflexivity]. destruct t; try reflexivity; destruct WR as [WR|[WR|WR]]; try discriminate WR; exfalso; apply WR; reflexivity. }
  assert (E1 : x_chans x2 c = Some k1). { unfold x2. destruct w; cbn; rewrite Nat.eqb_refl; reflexivity. }
  assert (E2 : forall j, x_links x2 j = if Nat.eqb j i then Some l1 else x_links x j). { unfold x2. destruct w; reflexivity. }
  assert (E3 : x_out x2 = x_out x). { unfold x2. destruct w; reflexivity. }
  assert (TD : forall j m, In (j, m) (todo x2 k1) <-> In j (k_links k) /\ x_links x2 j = Some m /\ l_scratch m <> None).
  { intros j m. unfold todo. rewrite filter_In, all_links_in. cbn [snd k1 k_with_put k_links]. destruct (l_scratch m); split; [intros [[H1 H2] _]; split; [exact H1|split; [exact H2|discriminate]]|intros (H1 & H2 & _); split; [split; assumption|reflexivity]|intros [_ H]; discriminate H|intros (_ & _ & H); contradiction]. }
  assert (TI : In (i, l1) (todo x2 k1)). { apply TD. split; [exact IN|]. split; [rewrite E2, Nat.eqb_refl; reflexivity|discriminate]. }
  destruct (put_start c false x2 k1 E1) as (P1 & P2 & P3). { destruct (todo x2 k1); [contradiction|reflexivity]. }
  exists (emit [OPut i SOk] (put c false x2)), (mode_of x2 k1 false), (negb (is_nil after)), (procs (todo x2 k1)).
  split; [exact ST|]. split.
  { exists (used l1). eexists. eexists. split; [|split; [|split; [exact P2|split; [|split; [|split; [reflexivity|reflexivity]]]]]].
    - cbn. rewrite (put_links c false x2 k1 i E1). cbn [k1 k_with_put k_links]. rewrite (proj2 (existsb_in i (k_links k)) IN), E2, Nat.eqb_refl. reflexivity.
    - exact LC.
    - reflexivity.
    - reflexivity. }
  split; [cbn [emit x_out]; rewrite P1, E3, <- app_assoc; reflexivity|].
  split.
  { intros p. unfold procs. rewrite in_map_iff. pose proof (links_are x c k IV K) as (_ & AT & _). split.
    - intros ([j m] & <- & H). apply TD in H. destruct H as (J & M & S). exists j. split; [apply AT, J|]. rewrite E2 in M. cbn [snd]. destruct (Nat.eqb_spec j i) as [-> |N].
      + injection M as <-. split; [left; reflexivity|]. unfold proc_of. rewrite L. reflexivity.
      + unfold deferred_put, proc_of. rewrite M. split; [right; exact S|reflexivity].
    - intros (j & J & S & ->). apply AT in J. destruct (Nat.eq_dec j i) as [-> |N].
      + exists (i, l1). split; [|exact TI]. unfold proc_of. rewrite L. reflexivity.
      + destruct S as [S|S]; [contradiction|]. unfold deferred_put, proc_of in *. destruct (x_links x j) as [m|] eqn:M; [|contradiction]. exists (j, m). split; [reflexivity|]. apply TD. split; [exact J|]. split; [|exact S]. rewrite E2. destruct (Nat.eqb_spec j i); [contradiction|exact M]. }
  split; [apply mode_option|].
  assert (W0 : waiting x c = k_after k) by (unfold waiting; rewrite K; reflexivity). assert (W1 : waiting (emit [OPut i SOk] (put c false x2)) c = after) by (unfold waiting; cbn [emit x_chans]; rewrite P2; reflexivity).
  split.
  { rewrite W0. unfold after. destruct w; [|destruct (k_after k); cbn; split; [discriminate|intros [H|H]; [discriminate|contradiction]|intros _; right; discriminate|reflexivity]].
    split; [left; reflexivity|]. intros _. destruct (existsb _ (k_after k)) eqn:X; [destruct (k_after k); [discriminate|reflexivity]|destruct (k_after k); reflexivity]. }
  split.
  { intros r. rewrite W0, W1. unfold after. destruct w; [|intuition discriminate]. destruct (existsb _ (k_after k)) eqn:X.
    - apply existsb_in in X. split; [tauto|]. intros [H|[_ ->]]; assumption.
    - rewrite in_app_iff. cbn. split; [intros [H|[H|[]]]; [tauto|right; split; [reflexivity|congruence]]|intros [H|[_ H]]; [tauto|right; left; congruence]]. }
  intros ->. cbn [emit x_recs]. rewrite P3. cbn. rewrite Nat.eqb_refl. reflexivity.
Qed.
Lemma reject fp h x i l c d w : reached fp h x -> x_links x i = Some l -> l_chan l = Some c -> cf_retry (l_conf l) = false -> latest (taken c (x_out x)) = None ->
  exists y, step fp x (EPut i d w) = Some y /\ x_out y = x_out x ++ [OPut i SFail] /\ x_recs y = x_recs x /\ x_links y = x_links x /\ x_chans y = x_chans x.
Proof.
  intros R L C RT W. pose proof (inv_reached _ _ _ R) as IV. destruct (i_att _ IV _ _ _ L C) as (k & K & _).
  assert (V : valid k = false). { destruct (valid k) eqn:V; [|reflexivity]. apply (valid_latest x c k IV K) in V. contradiction. }
  eexists. split; [cbn [step]; unfold put_value; rewrite L; unfold chan_of; rewrite L, C, K, RT, V; reflexivity|]. repeat split; reflexivity.
Qed.

(** ** A value is sent *)
Lemma not_empty d : is_empty d = false <-> d <> DTexts [] /\ forall t, d <> DNums t [].
Proof.
  destruct d as [t [|z l]|[|s l]]; cbn; split; try discriminate; try reflexivity.
  - intros [_ H]. destruct (H t eq_refl).
  - intros _. split; [discriminate|]. intros t'. discriminate.
  - intros [H _]. destruct (H eq_refl).
  - intros _. split; discriminate.
Qed.
Lemma target_place w l : target w l = match field_at w (l_conf l) with
   | None => None | Some _ => match w (place_of w (l_conf l)) with Some n => Some (place_of w (l_conf l), n) | None => None end end.
Proof.
  unfold target, place_of, field_at, is_struct. destruct (w (path_of (cf_field (l_conf l)))) as [n|] eqn:N; [|reflexivity]. destruct (_ =? _)%Z; [|rewrite N; reflexivity].
  destruct (w (path_of (cf_field (l_conf l)) ++ [bs "value"])) as [m|] eqn:M; [rewrite M; reflexivity|rewrite N; reflexivity].
Qed.
Lemma place_some w cf : field_at w cf <> None -> w (place_of w cf) <> None.
Proof. unfold place_of, field_at. destruct (is_struct _); [destruct (w (path_of _ ++ [bs "value"])) eqn:M; [congruence|tauto]|tauto]. Qed.
Lemma item_writes w l d : writes w (l_conf l) d (match item w l d with Some p => [p] | None => [] end).
Proof.
  unfold item. rewrite target_place. destruct (field_at w (l_conf l)) as [f|] eqn:F; [|apply w_none, F].
  assert (P : w (place_of w (l_conf l)) <> None) by (apply place_some; congruence). destruct (w (place_of w (l_conf l))) as [n|] eqn:N; [|contradiction].
  destruct (tc_isarray (nd_code n)) eqn:A; [exact (w_array _ _ _ n N A)|]. destruct (is_empty d) eqn:E.
  - apply (w_empty _ _ _ n N A). destruct d as [t [|]|[|]]; try discriminate; [right; exists t; reflexivity|left; reflexivity].
  - apply not_empty in E. destruct E as [E1 E2]. destruct (Z.eqb_spec (nd_code n) tc_Struct) as [S|S]; cbn [andb].
    + destruct (str_eqb (nd_id n) (bs "enum_t")) eqn:I; [apply str_eqb_eq in I; exact (w_enum _ _ _ n N S I E1 E2)|]. apply (w_scalar _ _ _ n N A E1 E2). right. intros H. apply str_eqb_eq in H. congruence.
    + apply (w_scalar _ _ _ n N A E1 E2). left. exact S.
Qed.
Lemma build_parts x w is : forall a b ok, (forall i, In i is -> x_links x i <> None) -> build_items w (fun _ => false) (all_links x is) = (a, b, ok) ->
  ok = true /\ parts x w is a /\ forall i, In i b <-> In i is /\ queued_put x i <> None.
Proof.
  induction is as [|i is IH]; intros a b ok HL H; cbn in H.
  - injection H as <- <- <-. split; [reflexivity|]. split; [constructor|]. intros i. cbn. tauto.
  - destruct (x_links x i) as [l|] eqn:L; [|destruct (HL i (or_introl eq_refl) L)]. cbn [app build_items] in H.
    assert (HL' : forall j, In j is -> x_links x j <> None) by (intros j J; apply HL; right; exact J).
    fold (all_links x is) in H. destruct (build_items w (fun _ => false) (all_links x is)) as [[a' b'] ok'] eqn:B. destruct (IH a' b' ok' HL' eq_refl) as (-> & P & Q).
    destruct (l_queue l) as [d|] eqn:D.
    + pose proof (item_writes w l d) as W. destruct (item w l d) as [[p it]|]; injection H as <- <- <-; (split; [reflexivity|]); split.
      * exact (p_add x w i is l d _ _ L D W P).
      * intros j. cbn [In]. rewrite Q. unfold queued_put. split; [intros [<- |H]; [rewrite L, D; split; [tauto|discriminate]|tauto]|intros [[H|H] H']; tauto].
      * exact (p_add x w i is l d _ _ L D W P).
      * intros j. cbn [In]. rewrite Q. unfold queued_put. split; [intros [<- |H]; [rewrite L, D; split; [tauto|discriminate]|tauto]|intros [[H|H] H']; tauto].
    + injection H as <- <- <-. split; [reflexivity|]. split; [apply p_skip; [unfold queued_put; rewrite L; exact D|exact P]|]. intros j. cbn [In]. rewrite Q. unfold queued_put. split; [tauto|]. intros [[<- |H] H']; [rewrite L, D in H'; contradiction|tauto].
Qed.
Lemma send fp h x i c d w : reached fp h x -> pending x i c d ->
  exists y is items, step fp x (EBuild c w (fun _ => false)) = Some y /\ the_links x c is /\ In i is /\ queued_put x i = Some d /\ parts x w is items /\ x_out y = x_out x ++ [OSend c items] /\
    forall j, attached x j c -> queued_put y j = None.
Proof.
  intros R (l & k & op & L & LC & K & _ & Q & O & B). pose proof (inv_reached _ _ _ R) as IV. pose proof (links_are x c k IV K) as TL. destruct TL as (T1 & T2 & T3).
  destruct (build_items w (fun _ => false) (all_links x (k_links k))) as [[a b] ok] eqn:BI.
  destruct (build_parts x w (k_links k) a b ok) as (-> & P & QB); [|exact BI|]. { intros j J. destruct (i_back _ IV _ _ _ K J) as (m & M & _). congruence. }
  exists (emit [OSend c a] (set_chan c (Some (k_with_put (Some {| po_built := true; po_block := po_block op; po_mode := po_mode op |}) (k_after k) k)) (map_links (fun l => l_with_put (l_scratch l) None l) b x))), (k_links k), a.
  split; [cbn [step]; unfold build; rewrite K, O, B, BI; reflexivity|]. split; [exact (conj T1 (conj T2 T3))|]. split; [apply T2; exists l; tauto|]. split; [unfold queued_put; rewrite L; exact Q|]. split; [exact P|]. split; [reflexivity|].
  intros j J. apply T2 in J. unfold queued_put. cbn. destruct (existsb (Nat.eqb j) b) eqn:X.
  - destruct (x_links x j); reflexivity.
  - destruct (x_links x j) as [m|] eqn:M; [|reflexivity]. destruct (l_queue m) eqn:MQ; [|reflexivity]. assert (In j b). { apply QB. split; [exact J|]. unfold queued_put. rewrite M, MQ. discriminate. } apply existsb_in in H. congruence.
Qed.

(** ** Nothing else is sent *)
Definition has (x : ctx) (i : nat) (d : pdata) : Prop := exists l, x_links x i = Some l /\ (l_scratch l = Some d \/ l_queue l = Some d).
Lemma has_same x y i d : x_links y i = x_links x i -> has y i d -> has x i d.
Proof. intros E (l & L & H). exists l. rewrite <- E. tauto. Qed.
Lemma has_emit o x i d : has (emit o x) i d -> has x i d.
Proof. exact (fun h => h). Qed.
Lemma has_put c f x i d : has (put c f x) i d -> has x i d.
Proof.
  destruct (x_chans x c) as [k|] eqn:K; [|rewrite put_links_none by exact K; exact (fun h => h)]. intros (l & L & H). rewrite (put_links c f x k i K) in L. destruct (existsb _ _); [|exists l; tauto].
  destruct (x_links x i) as [m|] eqn:M; [|discriminate]. injection L as <-. exists m. split; [exact M|]. unfold used in H. destruct (l_scratch m) eqn:S; [|rewrite S in H; exact H]. cbn in H. destruct H as [H|H]; [discriminate|left; exact H].
Qed.
Lemma has_put_done c ok x i d : has (put_done c ok x) i d -> has x i d.
Proof.
  unfold put_done. destruct (x_chans x c) as [k|]; [|exact (fun h => h)]. cbv zeta. intros H.
  assert (A : has (if ok then put c false (set_chan c (Some (k_with_put None (k_after k) k)) x) else set_chan c (Some (k_with_put None (k_after k) k)) x) i d). { destruct (is_nil (k_after k)); [exact H|]. destruct H as (l & L & H). exists l. exact (conj L H). }
  destruct ok; [apply has_put in A|]; destruct A as (l & L & A); exists l; exact (conj L A).
Qed.
Lemma has_cleared b x i d : has (map_links (fun l => l_with_put (l_scratch l) None l) b x) i d -> has x i d.
Proof.
  intros (l & L & H). cbn in L. destruct (existsb _ b); [|exists l; tauto]. destruct (x_links x i) as [m|] eqn:M; [|discriminate]. injection L as <-. exists m. split; [exact M|]. cbn in H. destruct H as [H|H]; [left; exact H|discriminate].
Qed.
Lemma has_build c w bad x i d : has (build c w bad x) i d -> has x i d.
Proof.
  unfold build. destruct (x_chans x c) as [k|]; [|exact (fun h => h)]. destruct (k_put k) as [op|]; [|exact (fun h => h)]. destruct (po_built op); [exact (fun h => h)|].
  destruct (build_items _ _ _) as [[a b] ok]. cbv zeta. destruct ok; intros H; [|apply has_put_done in H; exact (has_cleared b x i d H)]. destruct H as (l & L & H). apply (has_cleared b x i d). exists l. exact (conj L H).
Qed.
Lemma retyped_has e k i l d : l_scratch (retyped e k i l) = Some d \/ l_queue (retyped e k i l) = Some d -> l_scratch l = Some d \/ l_queue l = Some d.
Proof.
  destruct (existsb (Nat.eqb i) (k_links k)) eqn:X.
  - destruct e as [u|s ns|].
    + destruct (retyped_put (MUpdate u) k i l) as (_ & -> & ->); [discriminate|exact (fun h => h)].
    + unfold retyped. rewrite X. cbn. intros [H|H]; discriminate.
    + destruct (retyped_put MError k i l) as (_ & -> & ->); [discriminate|exact (fun h => h)].
  - destruct (retyped_put e k i l) as (_ & -> & ->); [intros; exact X|exact (fun h => h)].
Qed.
Lemma type_change_put k l : l_scratch (type_change k l) = l_scratch l /\ l_queue (type_change k l) = l_queue l.
Proof. unfold type_change. cbv zeta. match goal with |- context [match ?a ?b with Some n => if _ then _ else _ | None => _ end] => destruct (a b) as [n|] end; [destruct (_ =? _)%Z|]; split; reflexivity. Qed.
Lemma has_work x i d : inv x -> has (work x) i d -> has x i d.
Proof.
  intros IV. destruct (x_tasks x) as [|[t|t] r] eqn:T.
  - unfold work. rewrite T. exact (fun h => h).
  - unfold work. rewrite T. destruct (x_chans x t) as [k|] eqn:K; [|unfold run_chan; cbn; rewrite K; apply has_same; reflexivity].
    destruct (alive k) eqn:AL; [|unfold run_chan; cbn; rewrite K, AL; apply has_same; reflexivity]. destruct (k_events k) as [|e es] eqn:EV; [unfold run_chan; cbn; rewrite K, AL, EV; apply has_same; reflexivity|].
    assert (NE : k_links k <> []) by (unfold alive in AL; destruct (k_links k); discriminate). rewrite (run_chan_tasks t x k e es r K NE EV). pose proof (run_chan_event t x k e es IV K NE EV) as H. cbv zeta in H. destruct H as (_ & A2 & _).
    intros (l & L & H). cbn [set_tasks x_links] in L. rewrite A2 in L. destruct (x_links x i) as [m|] eqn:M; [|discriminate]. injection L as <-. exists m. split; [exact M|]. exact (retyped_has _ _ _ _ _ H).
  - unfold work. rewrite T. unfold after_put. cbn [set_tasks x_chans]. destruct (x_chans x t) as [k|]; [|apply has_same; reflexivity]. destruct (alive k); [|apply has_same; reflexivity].
    apply has_same. match goal with |- x_links (fold_left _ ?rs ?z) _ = _ => destruct (completes_same rs z) as [-> _] end. reflexivity.
Qed.
Lemma has_step fp x e y i d : inv x -> step fp x e = Some y -> has y i d -> has x i d \/ exists d0 w, e = EPut i d0 w /\ d = kept d0.
Proof.
  intros IV H HY. destruct e as [j cf kd r t|j|c'| |c' ev| |j t n|j d' w|j|c' w bad|c' ok|r rd]; cbn [step] in H; try (injection H as <-).
  - left. unfold open_link in HY. destruct (x_links x j) as [lj|] eqn:LJ; [exact HY|]. destruct (cf_local cf && negb t); [exact HY|].
    assert (G : forall z l', (forall q, x_links z q = x_links x q) -> l_scratch l' = None -> l_queue l' = None -> has (set_link j (Some l') z) i d -> has x i d).
    { intros z l' Z S Q (l & L & A). cbn in L. destruct (Nat.eqb_spec i j); [injection L as <-; destruct A; congruence|]. exists l. rewrite <- Z. tauto. }
    destruct (is_nil (cf_name cf)); [apply (G x (new_link cf kd r)); [reflexivity|reflexivity|reflexivity|exact HY]|]. cbv zeta in HY.
    set (pr := match find_chan (request cf) x with Some c0 => (x, c0) | None => _ end) in HY.
    assert (Q : x_links (fst pr) = x_links x). { unfold pr. destruct (find_chan (request cf) x); [reflexivity|]. cbn [fst]. destruct (x_running x); [rewrite subscribe_links; reflexivity|reflexivity]. }
    destruct pr as [x1 c1]. cbn [fst] in Q. destruct (x_chans x1 c1) as [ch|]; [|apply (has_same x x1); [rewrite Q; reflexivity|exact HY]].
    set (l' := if k_conn ch then type_change ch _ else _) in HY. assert (S : l_scratch l' = None /\ l_queue l' = None). { unfold l'. destruct (k_conn ch); [destruct (type_change_put ch (l_with_chan (Some c1) (new_link cf kd r))) as [-> ->]|]; split; reflexivity. } destruct S as [S1 S2].
    apply (G (set_chan c1 (Some (k_with_links (place x1 (cf_order cf) j (k_links ch)) true ch)) x1) l'); [intros q; cbn; rewrite Q; reflexivity|exact S1|exact S2|].
    destruct (if k_conn ch then scans l' else None); exact HY.
  - left. unfold remove_link in HY. destruct (x_links x j) as [lj|]; [|exact HY]. cbv zeta in HY.
    assert (Q : has (set_link j None x) i d). { destruct (l_chan lj) as [c1|]; [|exact HY]. destruct (x_chans x c1); exact HY. }
    destruct Q as (l & L & Q). cbn in L. destruct (Nat.eqb i j); [discriminate|]. exists l. tauto.
  - left. unfold free_chan in HY. destruct (x_chans x c') as [k|]; [destruct (alive k)|]; exact HY.
  - left. unfold init_links in HY. destruct (x_running x); [exact HY|]. pose proof (init_same (x_keys x) (set_running x)) as H. cbv zeta in H. destruct H as [A _]. apply (has_same x _ i d) in HY; [exact HY|]. rewrite A. reflexivity.
  - left. unfold net in HY. destruct (x_chans x c') as [k|]; [|exact HY]. destruct (k_open k); [|exact HY]. cbv zeta in HY. destruct (_ && _); exact HY.
  - left. exact (has_work x i d IV HY).
  - left. unfold get_value in H. destruct (x_links x j) as [lj|] eqn:LJ; [|injection H as <-; exact HY]. destruct (chan_of j x) as [[[l1 c1] k1]|] eqn:CO; [|discriminate]. cbv zeta in H.
    destruct (chan_of_some _ _ _ _ _ CO) as (A1 & A2 & A3).
    destruct (valid k1); cbn [negb] in H; [|injection H as <-; exact HY].
    destruct (read_value fp k1 l1 t n) as [[[b m]|rr]|]; [|destruct rr; try discriminate; injection H as <-; exact HY|injection H as <-; exact HY].
    destruct (read_snap fp k1 l1) as [[[z e] s]|rr]; [|destruct rr; try discriminate; injection H as <-; exact HY]. injection H as <-.
    destruct HY as (l & L & Q). cbn in L. destruct (Nat.eqb_spec i j) as [-> |N]; [|exists l; tauto]. injection L as <-. exists l1. split; [exact A1|exact Q].
  - unfold put_value in H. destruct (x_links x j) as [lj|] eqn:LJ; [|injection H as <-; left; exact HY]. destruct (chan_of j x) as [[[l1 c1] k1]|] eqn:CO; [|discriminate].
    destruct (chan_of_some _ _ _ _ _ CO) as (A1 & A2 & A3). destruct (negb _ && negb (valid k1)). { injection H as <-. left. exact HY. }
    assert (G : forall a, has (emit [OPut j SOk]
    (let x1 := set_link j (Some (l_with_put (Some (kept d')) (l_queue l1) l1)) (set_chan c1 (Some (k_with_put (k_put k1) a k1)) x) in
     let x2 := if w then set_rec (l_rec l1) {| r_pact := true; r_passive := r_passive (x_recs x (l_rec l1)) |} x1 else x1 in
     if cf_defer (l_conf l1) then x2 else put c1 false x2)) i d -> has x i d \/ exists d0 w0, EPut j d' w = EPut i d0 w0 /\ d = kept d0).
    { intros a Q. cbv zeta in Q. apply has_emit in Q.
      assert (Q1 : has (set_link j (Some (l_with_put (Some (kept d')) (l_queue l1) l1)) (set_chan c1 (Some (k_with_put (k_put k1) a k1)) x)) i d).
      { destruct (cf_defer _); [|apply has_put in Q]; destruct w; exact Q. }
      destruct Q1 as (l & L & B). cbn in L. destruct (Nat.eqb_spec i j) as [-> |N]; [|left; exists l; tauto]. injection L as <-. cbn in B. destruct B as [B|B].
      - right. exists d', w. split; [reflexivity|]. injection B as <-. reflexivity.
      - left. exists l1. tauto. }
    destruct d' as [[] z|s]; injection H as <-; try (left; exact HY); exact (G _ HY).
  - left. unfold forward in H. destruct (x_links x j) as [lj|] eqn:LJ; [|injection H as <-; exact HY]. destruct (chan_of j x) as [[[l1 c1] k1]|] eqn:CO; [|discriminate].
    destruct (negb _ && negb (valid k1)); injection H as <-; [exact HY|exact (has_put _ _ _ _ _ HY)].
  - left. exact (has_build _ _ _ _ _ _ HY).
  - left. unfold done in HY. destruct (x_chans x c') as [k1|]; [|exact HY]. destruct (k_put k1) as [op1|]; [|exact HY]. destruct (_ && _); [exact HY|exact (has_put_done _ _ _ _ _ HY)].
  - left. exact HY.
Qed.
Lemma has_run fp i d h : forall x y, inv x -> run fp x h = Some y -> has y i d -> has x i d \/ exists d0 w, In (EPut i d0 w) h /\ d = kept d0.
Proof.
  induction h as [|e r IH]; intros x y IV H HY; cbn [run] in H; [injection H as <-; left; exact HY|]. destruct (step fp x e) as [z|] eqn:Z; [|discriminate].
  destruct (IH z y (inv_step _ _ _ _ IV Z) H HY) as [A|(d0 & w & A & B)]; [|right; exists d0, w; split; [right; exact A|exact B]].
  destruct (has_step fp x e z i d IV Z A) as [B|(d0 & w & -> & B)]; [left; exact B|right; exists d0, w; split; [left; reflexivity|exact B]].
Qed.
(** a value which is there after [x] came from a record after [x] unless it was there *)
Lemma origin fp h x i d : reached fp h x -> queued_put x i = Some d \/ deferred_put x i = Some d -> exists d0 w, In (EPut i d0 w) h /\ d = kept d0.
Proof.
  intros R H. destruct (has_run fp i d h start x inv_start R) as [(l & L & _)|A]; [|discriminate L|exact A].
  unfold queued_put, deferred_put in H. destruct (x_links x i) as [l|] eqn:L; [|destruct H; discriminate]. exists l. tauto.
Qed.
