(** Invariants of the tracking of servers. *)
From Coq Require Import ZArith List Bool Lia ZifyBool ZifyNat.
From Verif Require Import Base BaseProofs WireModel UdpModel SearchModel BeaconModel BeaconSpec.
Import ListNotations.
Local Open Scope Z_scope.

Lemma sockaddr_eqb_eq : forall a b, sockaddr_eqb a b = true <-> a = b.
Proof.
  intros [] []; cbn; try (split; congruence); rewrite str_eqb_eq; split; congruence.
Qed.
Lemma key_eqb_eq : forall a b, key_eqb a b = true <-> a = b.
Proof.
  intros [[a p] s] [[b q] t]. unfold key_eqb. cbn [fst snd]. rewrite !andb_true_iff, sockaddr_eqb_eq, Z.eqb_eq, str_eqb_eq. split; [intros [[-> ->] ->]; auto|]. intros E. inversion E. auto.
Qed.
Lemma key_eqb_refl : forall a, key_eqb a a = true.
Proof. intros. apply key_eqb_eq. reflexivity. Qed.
Lemma key_eqb_neq : forall a b, key_eqb a b = false <-> a <> b.
Proof. intros. rewrite <- key_eqb_eq. destruct (key_eqb a b); split; congruence. Qed.

Lemma find_set : forall k i l k', find k' (set k i l) = if key_eqb k' k then Some i else find k' l.
Proof.
  intros k i l k'. induction l as [|[k0 i0] l IH]; cbn [set find].
  - reflexivity.
  - destruct (key_eqb k k0) eqn:E; cbn [find].
    + apply key_eqb_eq in E. subst k0. destruct (key_eqb k' k); reflexivity.
    + rewrite IH. destruct (key_eqb k' k0) eqn:E1; [|reflexivity]. apply key_eqb_eq in E1. subst k0.
      destruct (key_eqb k' k) eqn:E2; [|reflexivity]. apply key_eqb_eq in E2. subst k'. rewrite key_eqb_refl in E. discriminate.
Qed.
Lemma find_in : forall k l, find k l <> None <-> In k (map fst l).
Proof.
  intros k l. induction l as [|[k0 i0] l IH]; cbn [find map fst In]; [intuition|].
  destruct (key_eqb k k0) eqn:E.
  - apply key_eqb_eq in E. subst. intuition congruence.
  - apply key_eqb_neq in E. rewrite IH. intuition congruence.
Qed.
Lemma find_none : forall k l, ~ In k (map fst l) -> find k l = None.
Proof. intros k l H. destruct (find k l) eqn:E; auto. exfalso. apply H. apply find_in. congruence. Qed.
Lemma set_keys : forall k i l, map fst (set k i l) = if find k l then map fst l else map fst l ++ [k].
Proof.
  intros k i l. induction l as [|[k0 i0] l IH]; cbn [set find map fst]; [reflexivity|].
  destruct (key_eqb k k0) eqn:E; cbn [map fst]; [reflexivity|]. rewrite IH. destruct (find k l); reflexivity.
Qed.

(** ** Sequences of announcements *)
Lemma news_app : forall k a b, news k (a ++ b) = news k a ++ news k b.
Proof. intros k a b. induction a as [|d a IH]; cbn [app news]; auto. destruct (about_dec k d); cbn [app]; rewrite IH; reflexivity. Qed.
Lemma told_app : forall a b, told (a ++ b) = told a ++ told b.
Proof. induction a as [|[? ?|] a IH]; intros; cbn [app told]; rewrite ?IH; reflexivity. Qed.
Lemma alternate_app : forall a l b, alternate a l b -> forall l' c, alternate b l' c -> alternate a (l ++ l') c.
Proof. induction 1; intros; cbn [app]; auto; constructor; auto. Qed.
Lemma alternate_last : forall a l b, alternate a l b ->
  (l = [] /\ a = b) \/ exists l0 y x, l = l0 ++ [(y, x)] /\ b = if y : bool then Some x else None.
Proof.
  induction 1 as [s|x l s A IH|x l s A IH]; [left; auto| |]; right.
  - destruct IH as [[-> <-]|(l0 & y & x0 & -> & ->)].
    + exists [], true, x. auto.
    + exists ((true, x) :: l0), y, x0. auto.
  - destruct IH as [[-> <-]|(l0 & y & x0 & -> & ->)].
    + exists [], false, x. auto.
    + exists ((false, x) :: l0), y, x0. auto.
Qed.

Definition id_of (i : info) : ident := (i_version i, i_guid i).
Definition now_as (k : key) (c : ctx) : option ident := option_map id_of (find k (track c)).

Lemma about_event : forall k k' v p g t onl, about k (Discovered onl v p (snd k') (fst k') g t) <-> k = k'.
Proof. intros [a b] [a' b'] v p g t onl. unfold about. cbn. split; [intros [-> ->]; auto|intros E; inversion E; auto]. Qed.
Lemma news_event : forall k k' v p g t onl, news k [Discovered onl v p (snd k') (fst k') g t] = if key_eqb k k' then [(onl, (v, g))] else [].
Proof.
  intros. cbn [news]. destruct (about_dec k _) as [E|E].
  - apply about_event in E. subst. rewrite key_eqb_refl. reflexivity.
  - destruct (key_eqb k k') eqn:F; auto. exfalso. apply E. apply about_event. apply key_eqb_eq. exact F.
Qed.

Lemma news_cons : forall k k' v p g t onl l, news k (Discovered onl v p (snd k') (fst k') g t :: l) = (if key_eqb k k' then [(onl, (v, g))] else []) ++ news k l.
Proof. intros. match goal with |- news k (?d :: l) = _ => change (d :: l) with ([d] ++ l) end. rewrite news_app, news_event. reflexivity. Qed.
Lemma poke_track : forall now c, track (snd (poke now c)) = track c.
Proof. intros. unfold poke. destruct (npoked c); [destruct (_ <? _)|]; reflexivity. Qed.
Lemma poke_discs : forall now c, discs (snd (poke now c)) = discs c.
Proof. intros. unfold poke. destruct (npoked c); [destruct (_ <? _)|]; reflexivity. Qed.
Lemma poke_told : forall now c, told (fst (poke now c)) = [].
Proof. intros. unfold poke. destruct (npoked c); [destruct (_ <? _)|]; reflexivity. Qed.

(** what onBeacon() announces and tracks *)
Definition online (now : Z) (src : endpoint) (b : beacon) : discovered := Discovered true (b_version b) (Some src) (b_proto b) (b_server b, b_port b) (b_guid b) now.
Definition replaced (now : Z) (src : endpoint) (k : key) (i : info) : discovered := Discovered false (i_version i) (Some src) (snd k) (fst k) (i_guid i) now.
Definition fresh (now : Z) (src : endpoint) (b : beacon) : info := Info (b_guid b) (b_version b) now src.
Lemma same_dec : forall i b, negb (str_eqb (i_guid i) (b_guid b)) || negb (i_version i =? b_version b) = false <-> id_of i = ident_of b.
Proof.
  intros. unfold id_of, ident_of. rewrite orb_false_iff, !negb_false_iff, str_eqb_eq, Z.eqb_eq. split; [intros [-> ->]; auto|]. intros E. inversion E. auto.
Qed.
Lemma on_beacon_cases : forall now src b c o c', on_beacon now src b c = (o, c') -> let k := key_of b in
  match find k (track c) with
  | None => if zlen (track c) >=? track_limit then o = [] /\ c' = c
            else told o = [online now src b] /\ track c' = set k (fresh now src b) (track c)
  | Some i => told o = (if negb (str_eqb (i_guid i) (b_guid b)) || negb (i_version i =? b_version b) then [replaced now src k i; online now src b] else [])
              /\ track c' = set k (fresh now src b) (track c)
  end /\ discs c' = discs c.
Proof.
  intros now src b c o c' E k. unfold on_beacon in E. cbv zeta in E. fold (key_of b) in E. fold k in E.
  destruct (find k (track c)) as [i|] eqn:F.
  - match type of E with context [if ?x then Ctx _ _ _ _ else _] => idtac | _ => idtac end.
    destruct (negb (str_eqb (i_guid i) (b_guid b)) || negb (i_version i =? b_version b)) eqn:CH.
    + set (c1 := Ctx _ _ _ _) in E. pose proof (poke_track now c1) as P1. pose proof (poke_discs now c1) as P2. pose proof (poke_told now c1) as P3.
      destruct (poke now c1) as [o3 c2]. cbn [fst snd] in *. inversion E. subst. split; [split|]; [|exact P1|exact P2].
      rewrite ?told_app. cbn [told server_event app]. rewrite P3. reflexivity.
    + inversion E. subst. split; [split|]; reflexivity.
  - destruct (_ >=? _).
    + inversion E. subst. auto.
    + set (c1 := Ctx _ _ _ _) in E. pose proof (poke_track now c1) as P1. pose proof (poke_discs now c1) as P2. pose proof (poke_told now c1) as P3.
      destruct (poke now c1) as [o3 c2]. cbn [fst snd] in *. inversion E. subst. split; [split|]; [|exact P1|exact P2].
      rewrite ?told_app. cbn [told server_event app]. rewrite P3. reflexivity.
Qed.

(** what tickBeaconClean() announces about one server *)
Lemma clean_find : forall now c l o r, NoDup (map fst l) -> clean_all now c l = (o, r) -> forall k,
  find k r = match find k l with Some i => if stale now i then None else Some i | None => None end /\
  news k (told o) = match find k l with Some i => if stale now i then [(false, id_of i)] else [] | None => [] end.
Proof.
  intros now c l. induction l as [|[k0 i0] l IH]; intros o r ND E k.
  - inversion E. auto.
  - cbn [clean_all] in E. destruct (clean_all now c l) as [o1 r1]. cbn [map fst] in ND. inversion ND as [|? ? NI ND']. subst.
    destruct (IH o1 r1 ND' eq_refl k) as [F N]. cbn [find]. destruct (key_eqb k k0) eqn:K.
    + apply key_eqb_eq in K. subst k0. rewrite (find_none k l NI) in F, N. destruct (stale now i0); inversion E; subst.
      * split; [exact F|]. cbn [told server_event app]. rewrite news_cons, N, key_eqb_refl. reflexivity.
      * split; [cbn [find]; rewrite key_eqb_refl; reflexivity|exact N].
    + destruct (stale now i0); inversion E; subst.
      * split; [exact F|]. cbn [told server_event app]. rewrite news_cons, N, K. reflexivity.
      * split; [cbn [find]; rewrite K; exact F|exact N].
Qed.
Lemma clean_keys : forall now c l, incl (map fst (snd (clean_all now c l))) (map fst l) /\ (NoDup (map fst l) -> NoDup (map fst (snd (clean_all now c l)))) /\ zlen (snd (clean_all now c l)) <= zlen l.
Proof.
  intros now c l. induction l as [|[k i] l (I1 & I2 & I3)]; cbn [clean_all map fst snd].
  - split; [intros x H; exact H|]. split; [auto|lia].
  - destruct (clean_all now c l) as [o r]. cbn [fst snd] in *. destruct (stale now i); cbn [map fst snd].
    + split; [intros x H; right; auto|]. split; [intros ND; inversion ND; auto|rewrite zlen_cons; lia].
    + split; [intros x [->|H]; [left|right]; auto|]. split; [|rewrite !zlen_cons; lia]. intros ND. inversion ND. subst. constructor; auto.
Qed.
Lemma clean_told : forall now c l o, In o (fst (clean_all now c l)) -> exists d, o = Told (discs c) d.
Proof.
  intros now c l. induction l as [|[k i] l IH]; cbn [clean_all fst]; [intros ? []|]. intros o. destruct (clean_all now c l) as [o1 r]. cbn [fst] in *.
  destruct (stale now i); cbn [fst]; [|auto]. cbn [server_event app]. intros [<-|H]; eauto.
Qed.

(** ** The invariant *)
Record inv (h : history) (c : ctx) : Prop := Inv {
  inv_nodup : NoDup (map fst (track c));
  inv_limit : zlen (track c) <= track_limit;
  inv_alt : forall k, alternate None (all_news k h) (now_as k c);
  inv_heard : forall k i, find k (track c) = Some i -> last_heard k h = Some (i_time i);
  inv_discs : forall op, In op (discs c) <-> active op h
}.
Lemma zlen_map : forall {A B} (f : A -> B) l, zlen (map f l) = zlen l.
Proof. intros. unfold zlen. rewrite map_length. reflexivity. Qed.
Lemma set_len : forall k i l, zlen (set k i l) = if find k l then zlen l else zlen l + 1.
Proof. intros. rewrite <- (zlen_map fst), set_keys. destruct (find k l); [apply zlen_map|]. rewrite zlen_app, zlen_map. reflexivity. Qed.
Lemma nodup_set : forall k i l, NoDup (map fst l) -> NoDup (map fst (set k i l)).
Proof.
  intros k i l ND. rewrite set_keys. destruct (find k l) eqn:F; auto.
  apply NoDup_rev in ND. rewrite <- (rev_involutive (map fst l ++ [k])). apply NoDup_rev. rewrite rev_app_distr. cbn [rev app]. constructor; auto.
  rewrite <- in_rev. intros H. apply find_in in H. contradiction.
Qed.
(** a step which does not change the servers tracked *)
Lemma inv_quiet : forall h c e o c', inv h c -> track c' = track c -> told o = [] -> (forall k, last_heard k ((e, o) :: h) = last_heard k h) ->
  (forall op, In op (discs c') <-> active op ((e, o) :: h)) -> inv ((e, o) :: h) c'.
Proof.
  intros h c e o c' I T TO LH D. constructor; try (rewrite T; apply I); auto.
  - intros k. cbn [all_news]. rewrite TO. cbn [news]. rewrite app_nil_r. unfold now_as. rewrite T. apply I.
  - intros k i F. rewrite LH. rewrite T in F. eapply inv_heard; eauto.
Qed.
Lemma inv_step : forall h c e o c', inv h c -> step c e = (o, c') -> inv ((e, o) :: h) c'.
Proof.
  intros h c e o c' I E. destruct e as [now src b|now|now| |op|op]; cbn [step] in E.
  - destruct (on_beacon_cases _ _ _ _ _ _ E) as [C D]. cbv zeta in C. set (k := key_of b) in *.
    assert (DD : forall op, In op (discs c') <-> active op ((Rx now src b, o) :: h)) by (intros op; rewrite D; cbn [active]; apply I).
    destruct (find k (track c)) as [i|] eqn:F.
    + destruct C as [TO T]. constructor; auto.
      * rewrite T. apply nodup_set, I.
      * rewrite T, set_len, F. apply I.
      * intros k'. cbn [all_news]. eapply alternate_app; [apply I|]. unfold now_as. rewrite T, find_set, TO.
        match goal with |- context [if ?x then _ :: _ else _] => destruct x eqn:CH end.
        -- change [replaced now src k i; online now src b] with ([replaced now src k i] ++ [online now src b]). rewrite news_app. unfold replaced, online.
           change (b_proto b) with (snd k). change (b_server b, b_port b) with (fst k). rewrite !news_event. destruct (key_eqb k' k) eqn:K.
           ++ apply key_eqb_eq in K. subst k'. rewrite F. cbn [option_map app]. do 2 constructor. constructor.
           ++ constructor.
        -- cbn [news]. destruct (key_eqb k' k) eqn:K; [|constructor]. apply key_eqb_eq in K. subst k'. rewrite F. cbn [option_map].
           apply same_dec in CH. rewrite CH. constructor.
      * intros k' i' F'. rewrite T, find_set in F'. cbn [last_heard]. fold k. destruct (key_dec k k') as [<-|NE].
        -- rewrite key_eqb_refl in F'. inversion F'. reflexivity.
        -- destruct (key_eqb k' k) eqn:K; [apply key_eqb_eq in K; congruence|]. eapply inv_heard; eauto.
    + destruct (Z.geb_spec (zlen (track c)) track_limit).
      * destruct C as [-> ->]. constructor; auto; try apply I.
        -- intros k'. cbn [all_news told news]. rewrite app_nil_r. apply I.
        -- intros k' i' F'. cbn [last_heard]. fold k. destruct (key_dec k k') as [<-|NE]; [congruence|]. eapply inv_heard; eauto.
      * destruct C as [TO T]. constructor; auto.
        -- rewrite T. apply nodup_set, I.
        -- rewrite T, set_len, F. lia.
        -- intros k'. cbn [all_news]. eapply alternate_app; [apply I|]. unfold now_as. rewrite T, find_set, TO. unfold online.
           change (b_proto b) with (snd k). change (b_server b, b_port b) with (fst k). rewrite !news_event. destruct (key_eqb k' k) eqn:K.
           ++ apply key_eqb_eq in K. subst k'. rewrite F. cbn [option_map app]. do 2 constructor.
           ++ constructor.
        -- intros k' i' F'. rewrite T, find_set in F'. cbn [last_heard]. fold k. destruct (key_dec k k') as [<-|NE].
           ++ rewrite key_eqb_refl in F'. inversion F'. reflexivity.
           ++ destruct (key_eqb k' k) eqn:K; [apply key_eqb_eq in K; congruence|]. eapply inv_heard; eauto.
  - destruct (clean_all now c (track c)) as [o1 l] eqn:CL. inversion E. subst o1 c'. pose proof (clean_find _ _ _ _ _ (inv_nodup _ _ I) CL) as CF.
    destruct (clean_keys now c (track c)) as (K1 & K2 & K3). rewrite CL in K1, K2, K3. cbn [snd] in *. constructor; cbn [track discs].
    + apply K2, I.
    + pose proof (inv_limit _ _ I). lia.
    + intros k. cbn [all_news]. eapply alternate_app; [apply I|]. destruct (CF k) as [F N]. rewrite N. unfold now_as. cbn [track]. rewrite F.
      destruct (find k (track c)) as [i|]; [|constructor]. destruct (stale now i); cbn [option_map]; repeat constructor.
    + intros k i F. cbn [last_heard]. destruct (CF k) as [F' _]. rewrite F' in F. destruct (find k (track c)) as [i'|] eqn:FF; [|discriminate]. destruct (stale now i'); [discriminate|]. inversion F. subst. eapply inv_heard; eauto.
    + intros op. cbn [active]. apply I.
  - pose proof (poke_track now c) as P1. pose proof (poke_discs now c) as P2. pose proof (poke_told now c) as P3. rewrite E in *. cbn [fst snd] in *.
    eapply inv_quiet; eauto. intros op. rewrite P2. cbn [active]. apply I.
  - inversion E. subst. eapply inv_quiet; eauto. intros op. cbn [active discs]. apply I.
  - inversion E. subst. eapply inv_quiet; eauto. intros op'. cbn [active discs]. rewrite <- (inv_discs _ _ I op'). destruct (existsb (Z.eqb op) (discs c)) eqn:EX.
    + split; auto. intros [->|?]; auto. apply existsb_exists in EX. destruct EX as (x & H & HX). apply Z.eqb_eq in HX. subst. auto.
    + rewrite in_app_iff. cbn [In]. intuition.
  - inversion E. subst. eapply inv_quiet; eauto. intros op'. cbn [active discs]. rewrite <- (inv_discs _ _ I op'), filter_In. intuition; try lia.
Qed.
Lemma ran_inv : forall h c, ran h c -> inv h c.
Proof.
  induction 1 as [|h c e o c' R IH ST].
  - constructor; cbn [track new_ctx map all_news find discs active].
    + constructor.
    + discriminate.
    + intros. constructor.
    + discriminate.
    + intros op. cbn. intuition.
  - eapply inv_step; eauto.
Qed.
Lemma known_now : forall h c k, inv h c -> known k h = now_as k c.
Proof.
  intros h c k I. unfold known. destruct (alternate_last _ _ _ (inv_alt _ _ I k)) as [[E <-]|(l & y & x & E & ->)]; rewrite E; [reflexivity|].
  rewrite rev_app_distr. cbn [rev app]. destruct y; reflexivity.
Qed.

(** ** Hurrying *)
Record hinv (h : history) (c : ctx) : Prop := HInv {
  hinv_some : forall t n, last_hurry h = Some (t, n) -> last_poke c = t /\ npoked c = (nBuckets - n)%nat;
  hinv_none : last_hurry h = None -> last_poke c = 0 /\ npoked c = 0%nat
}.
Definition may_hurry (now : Z) (h : history) : Prop :=
  match last_hurry h with Some (t, n) => (nBuckets <= n)%nat /\ now - t >= s 30 | None => now >= s 30 end.
Lemma poke_hurry : forall h c now, hinv h c -> In Hurry (fst (poke now c)) <-> may_hurry now h.
Proof.
  intros h c now I. unfold poke, may_hurry, s. destruct (last_hurry h) as [[t n]|] eqn:L.
  - destruct (hinv_some _ _ I _ _ L) as [E1 E2]. rewrite E1. destruct (npoked c) eqn:N; [|split; [intros []|lia]].
    unfold poke_holdoff, sec. destruct (Z.ltb_spec (now - t) (30 * 1000000000)); split; cbn [fst In]; try tauto; try lia; intros; split; lia.
  - destruct (hinv_none _ _ I L) as [E1 E2]. rewrite E1, E2. unfold poke_holdoff, sec. destruct (Z.ltb_spec (now - 0) (30 * 1000000000)); split; cbn [fst In]; try tauto; try lia.
Qed.
