(** Links: opening and removing links keep the invariants; any history does. *)
From Coq Require Import String ZArith List Bool Arith Lia Sorted.
From Verif Require Import Base BaseProofs WireModel TypeModel TextModel CopyModel GroupModel LinkModel LinkSpec LinkProofs2 LinkProofs3 LinkProofs4.
Import ListNotations.
Local Open Scope nat_scope.

Lemma key_eqb_eq a b : key_eqb a b = true <-> a = b.
Proof.
  destruct a as [s [p q]], b as [s' [p' q']]. unfold key_eqb. cbn. rewrite !andb_true_iff, str_eqb_eq, Z.eqb_eq, eqb_true_iff. split; [intros [[-> ->] ->]; reflexivity|intros [= -> -> ->]; repeat split; reflexivity].
Qed.
Lemma place_in x o i l j : In j (place x o i l) <-> j = i \/ In j l.
Proof.
  induction l as [|a r IH]; cbn [place]; [cbn; intuition congruence|]. destruct (x_links x a); [|cbn; rewrite IH; tauto].
  cbv zeta. destruct (_ || _); cbn [In]; [rewrite IH; tauto|intuition congruence].
Qed.
Lemma place_nodup x o i l : NoDup l -> ~ In i l -> NoDup (place x o i l).
Proof.
  intros N. induction N as [|a r A N IH]; intros F; cbn [place]; [constructor; [exact F|constructor]|].
  assert (G : NoDup (a :: place x o i r)). { constructor; [rewrite place_in; intros [-> |H]; [apply F; left; reflexivity|exact (A H)]|apply IH; intros H; apply F; right; exact H]. }
  destruct (x_links x a); [|exact G]. cbv zeta. destruct (_ || _); [exact G|]. constructor; [exact F|constructor; assumption].
Qed.
Lemma place_sorted x o i (ord : nat -> Z) l : ord i = o -> (forall j, In j l -> exists m, x_links x j = Some m /\ cf_order (l_conf m) = ord j) ->
  StronglySorted (fun a b => (ord a <= ord b)%Z) l -> StronglySorted (fun a b => (ord a <= ord b)%Z) (place x o i l).
Proof.
  intros O L S. induction S as [|a r S IH F]; cbn [place]; [repeat constructor|].
  destruct (L a) as (m & M & Q); [left; reflexivity|]. rewrite M. cbv zeta. rewrite Q. rewrite Forall_forall in F.
  destruct ((ord a <? o)%Z || _) eqn:B.
  - constructor; [apply IH; intros j J; apply L; right; exact J|]. rewrite Forall_forall. intros b H. apply place_in in H. destruct H as [-> |H]; [|apply F, H].
    rewrite O. apply orb_true_iff in B. rewrite andb_true_iff in B. rewrite Z.ltb_lt, Z.eqb_eq in B. lia.
  - constructor; [constructor; [exact S|rewrite Forall_forall; exact F]|]. apply orb_false_iff in B. destruct B as [B _]. apply Z.ltb_ge in B.
    rewrite Forall_forall. intros b [<-|H]; [lia|]. pose proof (F _ H). lia.
Qed.

(** a link without a name *)
Lemma fresh_not_in x i : inv x -> x_links x i = None -> forall c k, x_chans x c = Some k -> ~ In i (k_links k).
Proof. intros I N c k E H. destruct (i_back _ I _ _ _ E H) as (l & L & _). congruence. Qed.
Definition unlike (x y : ctx) (i : nat) : Prop := forall j, j <> i -> x_links y j = x_links x j.
Lemma unlike_order x y i j : unlike x y i -> j <> i -> order_of y j = order_of x j.
Proof. intros U N. unfold order_of. rewrite (U j N). reflexivity. Qed.
Lemma unlike_wanted x y i b is : unlike x y i -> ~ In i is -> wanted y b is = wanted x b is.
Proof. intros U N. apply somes_ext. intros j J. unfold wants. rewrite (U j); [reflexivity|]. intros ->. exact (N J). Qed.
Lemma inv_bare i l x : inv x -> x_links x i = None -> l_chan l = None -> cf_name (l_conf l) = [] -> inv (set_link i (Some l) x).
Proof.
  intros I N L C. pose proof (fresh_not_in x i I N) as F. assert (U : unlike x (set_link i (Some l) x) i). { intros j J. cbn. destruct (Nat.eqb_spec j i); [contradiction|reflexivity]. }
  constructor; cbn [set_link set_links x_chans x_nc x_tasks x_out x_keys]; try apply I.
  - intros j m c H1 H2. cbn in H1. destruct (Nat.eqb_spec j i); [injection H1 as <-; congruence|]. exact (i_att _ I _ _ _ H1 H2).
  - intros c k j H1 H2. rewrite (U j); [exact (i_back _ I _ _ _ H1 H2)|]. intros ->. exact (F _ _ H1 H2).
  - intros j m H1 H2. cbn in H1. destruct (Nat.eqb_spec j i); [injection H1 as <-; exact C|exact (i_name _ I _ _ H1 H2)].
  - intros j m c k H1 H2 H3. cbn in H1. destruct (Nat.eqb_spec j i); [injection H1 as <-; congruence|exact (i_key _ I _ _ _ _ H1 H2 H3)].
  - intros c k E. eapply sorted_ext; [|exact (i_sort _ I _ _ E)]. intros a b A B. cbn. rewrite !(unlike_order _ _ _ _ U); [exact (fun h => h)|intros ->; exact (F _ _ E B)|intros ->; exact (F _ _ E A)].
  - intros c k E H. rewrite !(unlike_wanted _ _ _ _ _ U (F _ _ E)). exact (i_scan _ I _ _ E H).
  - intros j m c k H1 H2 H3 H4. cbn in H1. destruct (Nat.eqb_spec j i); [injection H1 as <-; congruence|exact (i_fields _ I _ _ _ _ H1 H2 H3 H4)].
Qed.
(** a link of a channel *)
Lemma inv_attach i l c k o x : inv x -> x_links x i = None -> x_chans x c = Some k -> l_chan l = Some c -> k_key k = request (l_conf l) -> cf_name (l_conf l) <> [] ->
  cf_order (l_conf l) = o -> (k_links k <> [] \/ (k_events k = [] /\ k_notify k = true)) -> (k_conn k = true -> type_change k l = l) ->
  inv (set_link i (Some l) (set_chan c (Some (k_with_links (place x o i (k_links k)) true k)) x)).
Proof.
  intros I N E L K NM O ALV TC. pose proof (fresh_not_in x i I N) as F. set (k' := k_with_links (place x o i (k_links k)) true k).
  set (y := set_link i (Some l) (set_chan c (Some k') x)).
  assert (U : unlike x y i). { intros j J. cbn. destruct (Nat.eqb_spec j i); [contradiction|reflexivity]. }
  assert (UI : x_links y i = Some l) by (cbn; rewrite Nat.eqb_refl; reflexivity).
  assert (UL : forall j m, x_links y j = Some m -> (j = i /\ m = l) \/ (j <> i /\ x_links x j = Some m)).
  { intros j m H. destruct (Nat.eq_dec j i) as [-> |J]; [left; rewrite UI in H; injection H as <-; split; reflexivity|right; rewrite (U j J) in H; split; assumption]. }
  assert (C : forall d m, x_chans y d = Some m -> (d = c /\ m = k') \/ (d <> c /\ x_chans x d = Some m)).
  { intros d m H. cbn in H. destruct (Nat.eqb_spec d c) as [-> |J]; [left; injection H as <-; split; reflexivity|right; split; assumption]. }
  assert (C2 : forall d, d <> c -> x_chans y d = x_chans x d) by (intros d J; cbn; destruct (Nat.eqb_spec d c); [contradiction|reflexivity]).
  assert (C3 : x_chans y c = Some k') by (cbn; rewrite Nat.eqb_refl; reflexivity).
  assert (OI : order_of y i = o) by (unfold order_of; rewrite UI; exact O).
  constructor.
  - intros j m d H1 H2. destruct (UL _ _ H1) as [[-> ->]|[J A]].
    + rewrite L in H2. injection H2 as <-. exists k'. split; [exact C3|]. cbn. apply place_in. left. reflexivity.
    + destruct (i_att _ I _ _ _ A H2) as (kk & B & D). destruct (Nat.eq_dec d c) as [-> |ND]; [|exists kk; rewrite C2 by exact ND; split; assumption].
      exists k'. split; [exact C3|]. cbn. apply place_in. right. rewrite E in B. injection B as ->. exact D.
  - intros d kk j H1 H2. destruct (C _ _ H1) as [[-> ->]|[J A]].
    + cbn in H2. apply place_in in H2. destruct H2 as [-> |H2]; [exists l; split; [exact UI|exact L]|]. rewrite (U j); [exact (i_back _ I _ _ _ E H2)|]. intros ->. exact (F _ _ E H2).
    + rewrite (U j); [exact (i_back _ I _ _ _ A H2)|]. intros ->. exact (F _ _ A H2).
  - intros j m H1 H2. destruct (UL _ _ H1) as [[-> ->]|[J A]]; [congruence|exact (i_name _ I _ _ A H2)].
  - intros j m d kk H1 H2 H3. destruct (UL _ _ H1) as [[-> ->]|[J A]].
    + rewrite L in H2. injection H2 as <-. rewrite C3 in H3. injection H3 as <-. split; assumption.
    + destruct (C _ _ H3) as [[-> ->]|[JJ B]]; [exact (i_key _ I _ _ _ _ A H2 E)|exact (i_key _ I _ _ _ _ A H2 B)].
  - intros d kk H. destruct (C _ _ H) as [[-> ->]|[J B]]; [|exact (i_nodup _ I _ _ B)]. apply place_nodup; [exact (i_nodup _ I _ _ E)|exact (F _ _ E)].
  - intros d kk H. destruct (C _ _ H) as [[-> ->]|[J B]].
    + cbn [k_links k_with_links k']. apply place_sorted; [exact OI| |].
      * intros j J. destruct (i_back _ I _ _ _ E J) as (m & M & _). exists m. split; [exact M|]. unfold order_of. rewrite (U j), M; [reflexivity|]. intros ->. exact (F _ _ E J).
      * eapply sorted_ext; [|exact (i_sort _ I _ _ E)]. intros a b A B. cbn beta. rewrite !(unlike_order _ _ _ _ U); [exact (fun h => h)|intros ->; exact (F _ _ E B)|intros ->; exact (F _ _ E A)].
    + eapply sorted_ext; [|exact (i_sort _ I _ _ B)]. intros a b A1 B1. cbn beta. rewrite !(unlike_order _ _ _ _ U); [exact (fun h => h)|intros ->; exact (F _ _ B B1)|intros ->; exact (F _ _ B A1)].
  - intros d kk H. destruct (C _ _ H) as [[-> ->]|[J B]]; [exact (i_nc _ I _ _ E)|exact (i_nc _ I _ _ B)].
  - intros d kk H G. destruct (C _ _ H) as [[-> ->]|[J B]]; [discriminate G|]. rewrite !(unlike_wanted _ _ _ _ _ U (F _ _ B)). exact (i_scan _ I _ _ B G).
  - intros d kk H G. destruct (C _ _ H) as [[-> ->]|[J B]]; [exact (i_idle _ I _ _ E G)|exact (i_idle _ I _ _ B G)].
  - intros d kk H G. destruct (C _ _ H) as [[-> ->]|[J B]]; [|exact (i_note _ I _ _ B G)]. cbn. destruct ALV as [A|[A B]]; [exact (i_note _ I _ _ E A)|]. rewrite A, B. split; [congruence|discriminate].
  - intros d kk H. destruct (C _ _ H) as [[-> ->]|[J B]]; [exact (i_see _ I _ _ E)|exact (i_see _ I _ _ B)].
  - exact (i_new _ I).
  - intros j m d kk H1 H2 H3 H4. destruct (UL _ _ H1) as [[-> ->]|[J A]].
    + rewrite L in H2. injection H2 as <-. rewrite C3 in H3. injection H3 as <-. rewrite (type_change_roots k' k) by reflexivity. exact (TC H4).
    + destruct (C _ _ H3) as [[-> ->]|[JJ B]]; [rewrite (type_change_roots k' k) by reflexivity; exact (i_fields _ I _ _ _ _ A H2 E H4)|exact (i_fields _ I _ _ _ _ A H2 B H4)].
  - intros kk d H. destruct (i_keys _ I _ _ H) as [A B]. split; [exact A|]. intros ch H1. destruct (C _ _ H1) as [[-> ->]|[J D]]; [exact (B _ E)|exact (B _ D)].
Qed.
Lemma inv_newchan k keys x : inv x -> (forall p, In p keys -> In p (x_keys x) \/ p = (k, x_nc x)) ->
  inv (set_keys keys (S (x_nc x)) (set_chan (x_nc x) (Some (new_chan k)) x)).
Proof.
  intros I KS. set (c := x_nc x). set (y := set_keys keys (S c) (set_chan c (Some (new_chan k)) x)).
  assert (N0 : x_chans x c = None). { destruct (x_chans x c) eqn:Q; [|reflexivity]. pose proof (i_nc _ I _ _ Q). unfold c in *. lia. }
  assert (C : forall d m, x_chans y d = Some m -> (d = c /\ m = new_chan k) \/ (d <> c /\ x_chans x d = Some m)).
  { intros d m H. cbn in H. destruct (Nat.eqb_spec d c) as [-> |J]; [left; injection H as <-; split; reflexivity|right; split; assumption]. }
  assert (C2 : forall d, d <> c -> x_chans y d = x_chans x d) by (intros d J; cbn; destruct (Nat.eqb_spec d c); [contradiction|reflexivity]).
  constructor.
  - intros j m d H1 H2. destruct (i_att _ I _ _ _ H1 H2) as (kk & A & B). exists kk. rewrite C2; [split; assumption|]. intros ->. congruence.
  - intros d kk j H1 H2. destruct (C _ _ H1) as [[-> ->]|[J B]]; [contradiction H2|exact (i_back _ I _ _ _ B H2)].
  - exact (i_name _ I).
  - intros j m d kk H1 H2 H3. destruct (C _ _ H3) as [[-> ->]|[J B]]; [|exact (i_key _ I _ _ _ _ H1 H2 B)]. destruct (i_att _ I _ _ _ H1 H2) as (kk & A & _). congruence.
  - intros d kk H. destruct (C _ _ H) as [[-> ->]|[J B]]; [constructor|exact (i_nodup _ I _ _ B)].
  - intros d kk H. destruct (C _ _ H) as [[-> ->]|[J B]]; [constructor|exact (i_sort _ I _ _ B)].
  - intros d kk H. cbn. destruct (C _ _ H) as [[-> ->]|[J B]]; [lia|]. pose proof (i_nc _ I _ _ B). unfold c. lia.
  - intros d kk H G. destruct (C _ _ H) as [[-> ->]|[J B]]; [split; reflexivity|exact (i_scan _ I _ _ B G)].
  - intros d kk H G. destruct (C _ _ H) as [[-> ->]|[J B]]; [|exact (i_idle _ I _ _ B G)]. repeat split; try reflexivity. apply (i_new _ I). unfold c. lia.
  - intros d kk H G. destruct (C _ _ H) as [[-> ->]|[J B]]; [contradiction|exact (i_note _ I _ _ B G)].
  - intros d kk H. destruct (C _ _ H) as [[-> ->]|[J B]]; [|exact (i_see _ I _ _ B)]. change (x_out y) with (x_out x). cbn. rewrite (i_new _ I c) by (unfold c; lia). reflexivity.
  - intros d H. cbn in H. apply (i_new _ I). unfold c in *. lia.
  - intros j m d kk H1 H2 H3 H4. destruct (C _ _ H3) as [[-> ->]|[J B]]; [discriminate H4|exact (i_fields _ I _ _ _ _ H1 H2 B H4)].
  - intros kk d H. cbn in H. destruct (KS _ H) as [P|P].
    + destruct (i_keys _ I _ _ P) as [A B]. split; [cbn; fold c in A; lia|]. intros ch H1. destruct (C _ _ H1) as [[-> ->]|[J D]]; [unfold c in A; lia|exact (B _ D)].
    + injection P as -> ->. split; [cbn; lia|]. intros ch H1. destruct (C _ _ H1) as [[_ ->]|[J D]]; [reflexivity|contradiction].
Qed.
Lemma subscribe_links c x : x_links (subscribe c x) = x_links x.
Proof. unfold subscribe. destruct (x_chans x c); reflexivity. Qed.
Lemma inv_open i cf kd r t x : inv x -> inv (open_link i cf kd r t x).
Proof.
  intros I. unfold open_link. destruct (x_links x i) as [l|] eqn:N; [exact I|]. destruct (cf_local cf && negb t); [exact I|].
  destruct (is_nil (cf_name cf)) eqn:NM. { apply inv_bare; try assumption; [reflexivity|]. cbn. destruct (cf_name cf); [reflexivity|discriminate NM]. }
  assert (NM' : cf_name cf <> []) by (destruct (cf_name cf); [discriminate NM|discriminate]). cbv zeta.
  assert (G : forall x1 c ch o, inv x1 -> x_links x1 i = None -> x_chans x1 c = Some ch -> k_key ch = request cf -> (k_links ch <> [] \/ (k_events ch = [] /\ k_notify ch = true)) ->
    o = true \/ o = false ->
    inv (let l0 := l_with_chan (Some c) (new_link cf kd r) in let l := if k_conn ch then type_change ch l0 else l0 in
            let x2 := set_link i (Some l) (set_chan c (Some (k_with_links (place x1 (cf_order cf) i (k_links ch)) true ch)) x1) in
            match (if k_conn ch then scans l else None) with
            | Some check => emit (if negb check || r_passive (x_recs x r) then [OScanOnce r] else []) x2
            | None => x2
            end)).
  { intros x1 c ch o I1 N1 E1 K1 A1 _. cbv zeta.
    assert (J : inv (set_link i (Some (if k_conn ch then type_change ch (l_with_chan (Some c) (new_link cf kd r)) else l_with_chan (Some c) (new_link cf kd r)))
              (set_chan c (Some (k_with_links (place x1 (cf_order cf) i (k_links ch)) true ch)) x1))).
    { assert (Q : l_conf (if k_conn ch then type_change ch (l_with_chan (Some c) (new_link cf kd r)) else l_with_chan (Some c) (new_link cf kd r)) = cf /\
                  l_chan (if k_conn ch then type_change ch (l_with_chan (Some c) (new_link cf kd r)) else l_with_chan (Some c) (new_link cf kd r)) = Some c).
      { destruct (k_conn ch); [|split; reflexivity]. destruct (type_change_conf ch (l_with_chan (Some c) (new_link cf kd r))) as (-> & _ & _ & ->). split; reflexivity. }
      destruct Q as [Q1 Q2]. apply inv_attach; try assumption; rewrite ?Q1; try assumption; try reflexivity. intros KC. rewrite KC. apply type_change_twice. }
    destruct (if k_conn ch then _ else None) as [check|]; [|exact J]. eapply inv_core; [apply core_emit|exact J]. intros d. destruct (_ || _); reflexivity. }
  destruct (find_chan (request cf) x) as [c|] eqn:FC.
  - unfold find_chan in FC. destruct (find _ (x_keys x)) as [[k0 c0]|] eqn:FI; [|discriminate]. destruct (x_chans x c0) as [ch|] eqn:CH; [|discriminate]. destruct (alive ch) eqn:AL; [|discriminate]. injection FC as <-.
    rewrite CH. apply find_some in FI. destruct FI as [FI1 FI2]. apply key_eqb_eq in FI2. cbn in FI2. apply (G x c0 ch true); try assumption; [|left|left; reflexivity].
    + destruct (i_keys _ I _ _ FI1) as [_ B]. rewrite (B _ CH). symmetry. exact FI2.
    + unfold alive in AL. destruct (k_links ch); [discriminate AL|discriminate].
  - set (keys := if existsb _ (x_keys x) then x_keys x else x_keys x ++ [(request cf, x_nc x)]).
    assert (I1 : inv (set_keys keys (S (x_nc x)) (set_chan (x_nc x) (Some (new_chan (request cf))) x))).
    { apply inv_newchan; [exact I|]. intros p P. unfold keys in P. destruct (existsb _ _); [left; exact P|]. apply in_app_iff in P. destruct P as [P|[P|[]]]; [left; exact P|right; symmetry; exact P]. }
    set (x1 := set_keys keys (S (x_nc x)) (set_chan (x_nc x) (Some (new_chan (request cf))) x)) in *.
    assert (E1 : x_chans x1 (x_nc x) = Some (new_chan (request cf))) by (cbn; rewrite Nat.eqb_refl; reflexivity).
    destruct (x_running x).
    + assert (E2 : x_chans (subscribe (x_nc x) x1) (x_nc x) = Some (k_with_open true (new_chan (request cf)))) by (unfold subscribe; rewrite E1; cbn; rewrite Nat.eqb_refl; reflexivity).
      rewrite E2. apply (G _ _ _ true); [apply inv_subscribe; exact I1|rewrite subscribe_links; exact N|exact E2|reflexivity|right; split; reflexivity|left; reflexivity].
    + rewrite E1. apply (G _ _ _ true); [exact I1|exact N|exact E1|reflexivity|right; split; reflexivity|left; reflexivity].
Qed.
Lemma sorted_filter {A} (R : A -> A -> Prop) f l : StronglySorted R l -> StronglySorted R (filter f l).
Proof.
  intros S. induction S as [|a l S IH F]; [constructor|]. cbn. destruct (f a); [|exact IH]. constructor; [exact IH|]. rewrite Forall_forall in *. intros b B. apply filter_In in B. apply F, B.
Qed.
Lemma inv_remove i x : inv x -> inv (remove_link i x).
Proof.
  intros I. unfold remove_link. destruct (x_links x i) as [l|] eqn:N; [|exact I]. cbv zeta.
  destruct (l_chan l) as [c|] eqn:LC.
  2:{ assert (F : forall c k, x_chans x c = Some k -> ~ In i (k_links k)). { intros c k E H. destruct (i_back _ I _ _ _ E H) as (m & M & Q). congruence. }
      assert (U : unlike x (set_link i None x) i). { intros j J. cbn. destruct (Nat.eqb_spec j i); [contradiction|reflexivity]. }
      assert (UL : forall j m, x_links (set_link i None x) j = Some m -> x_links x j = Some m). { intros j m H. cbn in H. destruct (Nat.eqb_spec j i); [discriminate|exact H]. }
      constructor; cbn [set_link set_links x_chans x_nc x_tasks x_out x_keys]; try apply I.
      - intros j m c H1 H2. exact (i_att _ I _ _ _ (UL _ _ H1) H2).
      - intros c k j H1 H2. rewrite (U j); [exact (i_back _ I _ _ _ H1 H2)|]. intros ->. exact (F _ _ H1 H2).
      - intros j m H1 H2. exact (i_name _ I _ _ (UL _ _ H1) H2).
      - intros j m c k H1 H2 H3. exact (i_key _ I _ _ _ _ (UL _ _ H1) H2 H3).
      - intros c k E. eapply sorted_ext; [|exact (i_sort _ I _ _ E)]. intros a b A B. cbn beta. rewrite !(unlike_order _ _ _ _ U); [exact (fun h => h)|intros ->; exact (F _ _ E B)|intros ->; exact (F _ _ E A)].
      - intros c k E H. rewrite !(unlike_wanted _ _ _ _ _ U (F _ _ E)). exact (i_scan _ I _ _ E H).
      - intros j m c k H1 H2 H3 H4. exact (i_fields _ I _ _ _ _ (UL _ _ H1) H2 H3 H4). }
  destruct (i_att _ I _ _ _ N LC) as (k & E & IN). rewrite E. set (k' := k_with_links (filter (fun j => negb (Nat.eqb i j)) (k_links k)) true k).
  set (y := set_chan c (Some k') (set_link i None x)).
  assert (FI : forall j, In j (k_links k') <-> In j (k_links k) /\ j <> i). { intros j. cbn. rewrite filter_In. destruct (Nat.eqb_spec i j); cbn; intuition congruence. }
  assert (F : forall d kk, d <> c -> x_chans x d = Some kk -> ~ In i (k_links kk)). { intros d kk D Q H. destruct (i_back _ I _ _ _ Q H) as (m & M & Z). congruence. }
  assert (U : unlike x y i). { intros j J. cbn. destruct (Nat.eqb_spec j i); [contradiction|reflexivity]. }
  assert (UL : forall j m, x_links y j = Some m -> j <> i /\ x_links x j = Some m). { intros j m H. cbn in H. destruct (Nat.eqb_spec j i); [discriminate|split; assumption]. }
  assert (C : forall d m, x_chans y d = Some m -> (d = c /\ m = k') \/ (d <> c /\ x_chans x d = Some m)).
  { intros d m H. cbn in H. destruct (Nat.eqb_spec d c) as [-> |J]; [left; injection H as <-; split; reflexivity|right; split; assumption]. }
  assert (C2 : forall d, d <> c -> x_chans y d = x_chans x d) by (intros d J; cbn; destruct (Nat.eqb_spec d c); [contradiction|reflexivity]).
  assert (C3 : x_chans y c = Some k') by (cbn; rewrite Nat.eqb_refl; reflexivity).
  constructor.
  - intros j m d H1 H2. destruct (UL _ _ H1) as [J A]. destruct (i_att _ I _ _ _ A H2) as (kk & B & D). destruct (Nat.eq_dec d c) as [-> |ND]; [|exists kk; rewrite C2 by exact ND; split; assumption].
    exists k'. split; [exact C3|]. apply FI. rewrite E in B. injection B as ->. split; assumption.
  - intros d kk j H1 H2. destruct (C _ _ H1) as [[-> ->]|[J A]].
    + apply FI in H2. destruct H2 as [H2 H3]. rewrite (U j H3). exact (i_back _ I _ _ _ E H2).
    + rewrite (U j); [exact (i_back _ I _ _ _ A H2)|]. intros ->. exact (F _ _ J A H2).
  - intros j m H1 H2. exact (i_name _ I _ _ (proj2 (UL _ _ H1)) H2).
  - intros j m d kk H1 H2 H3. destruct (UL _ _ H1) as [J A]. destruct (C _ _ H3) as [[-> ->]|[JJ B]]; [exact (i_key _ I _ _ _ _ A H2 E)|exact (i_key _ I _ _ _ _ A H2 B)].
  - intros d kk H. destruct (C _ _ H) as [[-> ->]|[J B]]; [apply NoDup_filter; exact (i_nodup _ I _ _ E)|exact (i_nodup _ I _ _ B)].
  - intros d kk H. destruct (C _ _ H) as [[-> ->]|[J B]].
    + eapply sorted_ext; [|apply sorted_filter; exact (i_sort _ I _ _ E)]. intros a b A1 B1. cbn beta. assert (AA : In a (k_links k')) by exact A1. assert (BB : In b (k_links k')) by exact B1. apply FI in AA, BB.
      rewrite !(unlike_order _ _ _ _ U); [exact (fun h => h)|apply BB|apply AA].
    + eapply sorted_ext; [|exact (i_sort _ I _ _ B)]. intros a b A1 B1. cbn beta. rewrite !(unlike_order _ _ _ _ U); [exact (fun h => h)|intros ->; exact (F _ _ J B B1)|intros ->; exact (F _ _ J B A1)].
  - intros d kk H. destruct (C _ _ H) as [[-> ->]|[J B]]; [exact (i_nc _ I _ _ E)|exact (i_nc _ I _ _ B)].
  - intros d kk H G. destruct (C _ _ H) as [[-> ->]|[J B]]; [discriminate G|]. rewrite !(unlike_wanted _ _ _ _ _ U (F _ _ J B)). exact (i_scan _ I _ _ B G).
  - intros d kk H G. destruct (C _ _ H) as [[-> ->]|[J B]]; [exact (i_idle _ I _ _ E G)|exact (i_idle _ I _ _ B G)].
  - intros d kk H G. destruct (C _ _ H) as [[-> ->]|[J B]]; [|exact (i_note _ I _ _ B G)]. apply (i_note _ I _ _ E). intros Q. apply G. cbn. rewrite Q. reflexivity.
  - intros d kk H. destruct (C _ _ H) as [[-> ->]|[J B]]; [exact (i_see _ I _ _ E)|exact (i_see _ I _ _ B)].
  - exact (i_new _ I).
  - intros j m d kk H1 H2 H3 H4. destruct (UL _ _ H1) as [J A]. destruct (C _ _ H3) as [[-> ->]|[JJ B]]; [rewrite (type_change_roots k' k) by reflexivity; exact (i_fields _ I _ _ _ _ A H2 E H4)|exact (i_fields _ I _ _ _ _ A H2 B H4)].
  - intros kk d H. destruct (i_keys _ I _ _ H) as [A B]. split; [exact A|]. intros ch H1. destruct (C _ _ H1) as [[-> ->]|[J D]]; [exact (B _ E)|exact (B _ D)].
Qed.
Lemma inv_free c x : inv x -> inv (free_chan c x).
Proof.
  intros I. unfold free_chan. destruct (x_chans x c) as [k|] eqn:E; [|exact I]. destruct (alive k) eqn:AL; [exact I|].
  assert (KL : k_links k = []) by (unfold alive in AL; destruct (k_links k); [reflexivity|discriminate AL]).
  match goal with |- inv ?z => set (y := z) end.
  assert (C : forall d m, x_chans y d = Some m -> d <> c /\ x_chans x d = Some m). { intros d m H. cbn in H. destruct (Nat.eqb_spec d c) as [-> |J]; [discriminate|split; assumption]. }
  assert (C2 : forall d, d <> c -> x_chans y d = x_chans x d) by (intros d J; cbn; destruct (Nat.eqb_spec d c); [contradiction|reflexivity]).
  constructor.
  - intros j m d H1 H2. destruct (i_att _ I _ _ _ H1 H2) as (kk & A & B). exists kk. rewrite C2; [split; assumption|]. intros ->. rewrite E in A. injection A as <-. rewrite KL in B. exact B.
  - intros d kk j H1 H2. destruct (C _ _ H1) as [_ B]. exact (i_back _ I _ _ _ B H2).
  - exact (i_name _ I).
  - intros j m d kk H1 H2 H3. destruct (C _ _ H3) as [_ B]. exact (i_key _ I _ _ _ _ H1 H2 B).
  - intros d kk H. destruct (C _ _ H) as [_ B]. exact (i_nodup _ I _ _ B).
  - intros d kk H. destruct (C _ _ H) as [_ B]. exact (i_sort _ I _ _ B).
  - intros d kk H. destruct (C _ _ H) as [_ B]. exact (i_nc _ I _ _ B).
  - intros d kk H. destruct (C _ _ H) as [_ B]. exact (i_scan _ I _ _ B).
  - intros d kk H. destruct (C _ _ H) as [_ B]. exact (i_idle _ I _ _ B).
  - intros d kk H. destruct (C _ _ H) as [_ B]. exact (i_note _ I _ _ B).
  - intros d kk H. destruct (C _ _ H) as [_ B]. exact (i_see _ I _ _ B).
  - exact (i_new _ I).
  - intros j m d kk H1 H2 H3 H4. destruct (C _ _ H3) as [_ B]. exact (i_fields _ I _ _ _ _ H1 H2 B H4).
  - intros kk d H. cbn in H. apply filter_In in H. destruct H as [H _]. destruct (i_keys _ I _ _ H) as [A B]. split; [exact A|]. intros ch H1. destruct (C _ _ H1) as [_ D]. exact (B _ D).
Qed.
Lemma inv_init x : inv x -> inv (init_links x).
Proof.
  intros I. unfold init_links. destruct (x_running x); [exact I|].
  assert (J : inv (set_running x)) by (destruct I; constructor; cbn; assumption). revert J. generalize (set_running x) as y. induction (x_keys x) as [|p r IH]; intros y J; [exact J|]. cbn.
  apply IH. destruct (x_chans y (snd p)) as [k|]; [|exact J]. destruct (alive k); [apply inv_subscribe, J|exact J].
Qed.
Theorem inv_step fp x e y : inv x -> step fp x e = Some y -> inv y.
Proof.
  intros I H. destruct e; cbn [step] in H; try (injection H as <-).
  - apply inv_open, I.
  - apply inv_remove, I.
  - apply inv_free, I.
  - apply inv_init, I.
  - apply inv_net, I.
  - apply inv_work, I.
  - eapply inv_core; [eapply core_get; exact H|exact I].
  - eapply inv_core; [eapply core_put_value; exact H|exact I].
  - eapply inv_core; [eapply core_forward; exact H|exact I].
  - eapply inv_core; [apply core_build|exact I].
  - eapply inv_core; [apply core_done|exact I].
  - eapply inv_core; [apply core_set_rec|exact I].
Qed.
Lemma inv_run fp h : forall x y, inv x -> run fp x h = Some y -> inv y.
Proof. induction h as [|e r IH]; intros x y I H; cbn in H; [injection H as <-; exact I|]. destruct (step fp x e) as [z|] eqn:S; [|discriminate]. eapply IH; [eapply inv_step; [exact I|exact S]|exact H]. Qed.
Lemma inv_reached fp h x : reached fp h x -> inv x.
Proof. intros H. eapply inv_run; [exact inv_start|exact H]. Qed.
