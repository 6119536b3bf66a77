(** PVA links: what a record learns about a PV. *)
From Coq Require Import String ZArith List Bool Arith Lia.
From Verif Require Import Base BaseProofs WireModel TypeModel TextModel ValueModel CopyModel GroupModel LinkModel LinkSpec LinkProofs2 LinkProofs3 LinkProofs4 LinkProofs5 LinkProofs6 LinkProofs7 LinkProofs8.
Import ListNotations.
Local Open Scope Z_scope.

Lemma meta_of k v l q : root_at k v -> type_change k l = l -> meta_at k l (map bs q) = part v (l_conf l) q.
Proof.
  intros [r R] T. assert (M : f_meta l = match v (path_of (cf_field (l_conf l))) with Some n => if nd_code n =? tc_Struct then Some (length r, path_of (cf_field (l_conf l))) else None | None => None end).
  { rewrite <- T at 1. clear T. unfold type_change. rewrite R, nth_last. rewrite app_length. cbn [length]. rewrite Nat.add_1_r. cbn [pred]. cbv zeta.
    destruct (v (path_of (cf_field (l_conf l)))) as [n|]; [destruct (nd_code n =? tc_Struct)|]; reflexivity. }
  unfold meta_at, part, field_at, is_struct. rewrite M. destruct (v (path_of (cf_field (l_conf l)))) as [n|]; [|reflexivity]. destruct (nd_code n =? tc_Struct); [|reflexivity]. apply (look_last k r v _ R).
Qed.
(** what a connected link knows *)
Lemma knows fp h x i l c w : reached fp h x -> x_links x i = Some l -> l_chan l = Some c -> latest (taken c (x_out x)) = Some w ->
  exists k, x_chans x c = Some k /\ valid k = true /\ look k (f_value l) = value_at w (l_conf l) /\ (forall q, meta_at k l (map bs q) = part w (l_conf l) q) /\
    (forall q, (match f_value l with Some (g, p) => look k (Some (g, p ++ q)) | None => None end) =
     (if is_struct (field_at w (l_conf l)) then match w (path_of (cf_field (l_conf l)) ++ [bs "value"]) with Some _ => w ((path_of (cf_field (l_conf l)) ++ [bs "value"]) ++ q) | None => None end
      else match field_at w (l_conf l) with Some _ => w (path_of (cf_field (l_conf l)) ++ q) | None => None end)).
Proof.
  intros R L C W. pose proof (inv_reached _ _ _ R) as IV. destruct (i_att _ IV _ _ _ L C) as (k & K & _). exists k. split; [exact K|].
  pose proof (i_see _ IV _ _ K) as S. destruct (k_conn k) eqn:KC; [|congruence]. destruct S as (r & v & w' & RT & W' & SM).
  rewrite W in W'. apply some_inj in W'. subst w'. pose proof (i_fields _ IV _ _ _ _ L C K KC) as TC.
  assert (P : forall q, v q = w q) by exact SM.
  split; [unfold valid; rewrite KC, RT; destruct r; reflexivity|]. destruct (fields_of k v l (ex_intro _ r RT) TC) as (F1 & F2 & _).
  split; [rewrite F1; unfold value_at, field_at; rewrite !P; reflexivity|]. split; [intros q; rewrite (meta_of k v l q (ex_intro _ r RT) TC); unfold part, field_at; rewrite !P; reflexivity|].
  intros q. rewrite F2. unfold field_at. rewrite !P. reflexivity.
Qed.
Lemma knows_off fp h x i l c : reached fp h x -> x_links x i = Some l -> l_chan l = Some c -> latest (taken c (x_out x)) = None -> exists k, x_chans x c = Some k /\ valid k = false.
Proof.
  intros R L C W. pose proof (inv_reached _ _ _ R) as IV. destruct (i_att _ IV _ _ _ L C) as (k & K & _). exists k. split; [exact K|].
  destruct (valid k) eqn:V; [|reflexivity]. apply (valid_latest x c k IV K) in V. contradiction.
Qed.
Lemma type_scalar k l d t : valid k = true -> look k (f_value l) = Some d -> nd_code d = from_dbr t -> t <> DEnum -> t <> DNoAccess -> dbf_type k l = Some t.
Proof. intros V D C N1 N2. unfold dbf_type. rewrite V, D, C. destruct t; try contradiction; reflexivity. Qed.
Lemma type_enum k l d ix ch g p : valid k = true -> f_value l = Some (g, p) -> look k (f_value l) = Some d -> nd_code d = tc_Struct -> nd_id d = bs "enum_t" ->
  look k (Some (g, p ++ [bs "index"])) = Some ix -> look k (Some (g, p ++ [bs "choices"])) = Some ch -> is_int (nd_code ix) = true -> nd_code ix <> tc_Bool -> nd_code ch = tc_StringA -> dbf_type k l = Some DEnum.
Proof.
  intros V F D C N IX CH A B E. unfold dbf_type. rewrite V, D, C, F, IX, CH, A, E, N. apply Z.eqb_neq in B. rewrite B. reflexivity.
Qed.
Lemma read_keeps fp h x i l c w t n b m tm sev y :
  reached fp h x -> x_links x i = Some l -> l_chan l = Some c -> latest (taken c (x_out x)) = Some w -> is_struct (field_at w (l_conf l)) = true ->
  gives fp w (l_conf l) t n b m -> time_is w (l_conf l) tm -> severity_is w (l_conf l) sev -> step fp x (EGet i t n) = Some y ->
  exists l' k, x_links y i = Some l' /\ l_chan l' = Some c /\ x_chans y c = Some k /\ valid k = true /\ s_time l' = tm /\ s_sevr l' = sev.
Proof.
  intros R L C W ST G T SV S. pose proof (inv_reached _ _ _ R) as IV. destruct (knows fp h x i l c w R L C W) as (k & K & V & _).
  destruct (reading fp h x i l c w t n b m tm sev R L C W ST G T SV) as (y' & S' & O). rewrite S in S'. apply some_inj in S'. subst y'.
  cbn [step] in S. unfold get_value in S. rewrite L in S. unfold chan_of in S. rewrite L, C, K, V in S. cbn [negb] in S.
  destruct (read_value fp k l t n) as [[[b' m']|[]]|]; try discriminate S; try (exfalso; injection S as <-; cbn in O; apply app_inv_head in O; destruct (cf_sevr (l_conf l)); cbn in O; try (destruct (Z.eq_dec sev 0)); try (destruct (Z.eq_dec sev 3)); destruct (cf_time (l_conf l)); cbn in O; discriminate O).
  pose proof (i_see _ IV _ _ K) as SE. destruct (k_conn k) eqn:KC; [|congruence]. destruct SE as (r & v & w' & RT & W' & SM). rewrite W in W'. apply some_inj in W'. subst w'. pose proof (i_fields _ IV _ _ _ _ L C K KC) as TC.
  assert (P : forall q, v q = w q) by exact SM.
  assert (FA : field_at v (l_conf l) = field_at w (l_conf l)) by apply P.
  assert (PA : forall q, part v (l_conf l) q = part w (l_conf l) q) by (intros q; unfold part; rewrite FA, P; reflexivity).
  destruct (fields_of k v l (ex_intro _ r RT) TC) as (F1 & F2 & F3). rewrite FA in F3. destruct (F3 ST) as (F4 & F5 & F6 & F7).
  destruct (snap_read fp w (l_conf l) tm sev T SV) as (msg & SN).
  assert (RS : read_snap fp k l = CV (tm, sev, msg)). { unfold read_snap. rewrite F4, F5, F6, F7, !PA. exact SN. }
  rewrite RS in S. injection S as <-. exists (l_with_snap tm sev msg l), k. cbn. rewrite Nat.eqb_refl. split; [reflexivity|]. split; [exact C|]. split; [exact K|]. split; [exact V|]. split; reflexivity.
Qed.
