(** Links: reading. *)
From Coq Require Import String ZArith List Bool Arith Lia Sorted.
From Verif Require Import Base BaseProofs WireModel TypeModel TextModel ValueModel CopyModel GroupModel LinkModel LinkSpec LinkProofs2 LinkProofs3 LinkProofs4 LinkProofs5 LinkProofs6.
Import ListNotations.
Local Open Scope Z_scope.

(** casts *)
Lemma near m a b lo : 0 < m -> lo <= a < lo + m -> lo <= b < lo + m -> (m | a - b) -> a = b.
Proof. intros M A B [k K]. assert (k = 0) by nia. subst. lia. Qed.
Lemma pow_half b : (0 < b)%nat -> 2 ^ (8 * Z.of_nat b) = 2 ^ (8 * Z.of_nat b - 1) + 2 ^ (8 * Z.of_nat b - 1).
Proof. intros B. replace (8 * Z.of_nat b) with (Z.succ (8 * Z.of_nat b - 1)) at 1 by lia. rewrite Z.pow_succ_r by lia. lia. Qed.
Lemma cast_s b x y : (0 < b)%nat -> - 2 ^ (8 * Z.of_nat b - 1) <= y < 2 ^ (8 * Z.of_nat b - 1) -> (2 ^ (8 * Z.of_nat b) | x - y) -> s_cast b x = y.
Proof.
  intros B R D. pose proof (s_cast_range b x B) as Q. pose proof (pow_half b B) as H. destruct (s_cast_mod b x) as [k K].
  apply (near (2 ^ (8 * Z.of_nat b)) _ _ (- 2 ^ (8 * Z.of_nat b - 1))); [apply Z.pow_pos_nonneg; lia|lia|lia|].
  rewrite K. replace (x + k * 2 ^ (8 * Z.of_nat b) - y) with ((x - y) + k * 2 ^ (8 * Z.of_nat b)) by lia. apply Z.divide_add_r; [exact D|exists k; reflexivity].
Qed.
Lemma cast_u b x y : 0 <= y < 2 ^ (8 * Z.of_nat b) -> (2 ^ (8 * Z.of_nat b) | x - y) -> u_cast b x = y.
Proof.
  intros R [k K]. unfold u_cast. replace x with (y + k * 2 ^ (8 * Z.of_nat b)) by lia. rewrite Z_mod_plus_full. apply Z.mod_small. exact R.
Qed.
Lemma pow_divides b : (b <= 8)%nat -> (2 ^ (8 * Z.of_nat b) | 2 ^ 64).
Proof. intros B. exists (2 ^ (64 - 8 * Z.of_nat b)). rewrite <- Z.pow_add_r by lia. f_equal. lia. Qed.
Lemma s8_near b z : (b <= 8)%nat -> (2 ^ (8 * Z.of_nat b) | s_cast 8 z - z).
Proof. intros B. destruct (s_cast_mod 8 z) as [k K]. rewrite K. replace (z + k * 2 ^ (8 * Z.of_nat 8) - z) with (k * 2 ^ 64) by (change (8 * Z.of_nat 8) with 64; lia). apply Z.divide_mul_r, pow_divides, B. Qed.
Lemma u8_near b z : (b <= 8)%nat -> (2 ^ (8 * Z.of_nat b) | u_cast 8 z - z).
Proof.
  intros B. unfold u_cast. change (8 * Z.of_nat 8) with 64. pose proof (Z.div_mod z (2 ^ 64)) as H.
  replace (z mod 2 ^ 64 - z) with ((- (z / 2 ^ 64)) * 2 ^ 64) by lia. apply Z.divide_mul_r, pow_divides, B.
Qed.
Lemma s8_s b z y : (0 < b <= 8)%nat -> - 2 ^ (8 * Z.of_nat b - 1) <= y < 2 ^ (8 * Z.of_nat b - 1) -> (2 ^ (8 * Z.of_nat b) | z - y) -> s_cast b (s_cast 8 z) = y.
Proof. intros B R D. apply cast_s; [lia|exact R|]. replace (s_cast 8 z - y) with ((s_cast 8 z - z) + (z - y)) by lia. apply Z.divide_add_r; [apply s8_near; lia|exact D]. Qed.
Lemma u8_u b z y : (b <= 8)%nat -> 0 <= y < 2 ^ (8 * Z.of_nat b) -> (2 ^ (8 * Z.of_nat b) | z - y) -> u_cast b (u_cast 8 z) = y.
Proof. intros B R D. apply cast_u; [exact R|]. replace (u_cast 8 z - y) with ((u_cast 8 z - z) + (z - y)) by lia. apply Z.divide_add_r; [apply u8_near; lia|exact D]. Qed.
Lemma as_int fp p z : p = PInt z \/ p = PUInt z -> as_z fp p WInt = CV (s_cast 8 z).
Proof. intros [-> | ->]; reflexivity. Qed.
Lemma as_uint fp p z : p = PInt z \/ p = PUInt z -> as_z fp p WUInt = CV (u_cast 8 z).
Proof. intros [-> | ->]; reflexivity. Qed.
Lemma u_mod n z : u_cast n z = z mod 2 ^ (8 * Z.of_nat n).
Proof. reflexivity. Qed.

(** lookups *)
Lemma look_last k r v p : k_roots k = r ++ [v] -> look k (Some (length r, p)) = v p.
Proof. intros E. unfold look. rewrite E, nth_error_app2 by lia. rewrite Nat.sub_diag. reflexivity. Qed.
Definition root_at (k : lchan) (v : img) : Prop := exists r, k_roots k = r ++ [v].
Lemma fields_of k v l : root_at k v -> type_change k l = l ->
  look k (f_value l) = value_at v (l_conf l) /\
  (forall q, (match f_value l with Some (g, p) => look k (Some (g, p ++ q)) | None => None end) =
     (if is_struct (field_at v (l_conf l)) then match v (path_of (cf_field (l_conf l)) ++ [bs "value"]) with Some _ => v ((path_of (cf_field (l_conf l)) ++ [bs "value"]) ++ q) | None => None end
      else match field_at v (l_conf l) with Some _ => v (path_of (cf_field (l_conf l)) ++ q) | None => None end)) /\
  (is_struct (field_at v (l_conf l)) = true ->
     look k (f_sec l) = part v (l_conf l) ["timeStamp"; "secondsPastEpoch"]%string /\ look k (f_nsec l) = part v (l_conf l) ["timeStamp"; "nanoseconds"]%string /\
     look k (f_sevr l) = part v (l_conf l) ["alarm"; "severity"]%string /\ look k (f_msg l) = part v (l_conf l) ["alarm"; "message"]%string).
Proof.
  intros [r R] T. rewrite <- T. clear T. unfold type_change. rewrite R, nth_last. rewrite app_length. cbn [length]. rewrite Nat.add_1_r. cbn [pred]. cbv zeta.
  assert (A : forall q, look k (match v q with Some _ => Some (length r, q) | None => None end) = v q). { intros q. destruct (v q) eqn:Q; [rewrite (look_last k r v q R); exact Q|reflexivity]. }
  destruct (v (path_of (cf_field (l_conf l)))) as [n|] eqn:N; [destruct (nd_code n =? tc_Struct) eqn:S|];
  cbn [l_with_fld f_value f_sec f_nsec f_sevr f_msg l_conf]; unfold value_at, part, field_at, is_struct; rewrite ?N, ?S.
  - split; [apply A|]. split.
    + intros q. destruct (v (path_of (cf_field (l_conf l)) ++ [bs "value"])) eqn:Q; [|reflexivity]. apply (look_last k r v _ R).
    + intros _. cbn [map]. rewrite !A. repeat split; reflexivity.
  - split; [rewrite (look_last k r v _ R); exact N|]. split; [|discriminate]. intros q. apply (look_last k r v _ R).
  - split; [reflexivity|]. split; [reflexivity|discriminate].
Qed.

(** conversions *)
Lemma is_scalar_read fp d t n m sub : is_scalar d -> asks n m -> read_node fp (Some d) sub t n = option_map (cv_map (fun b => (b, 1))) (read_scalar fp t (nd_data d)).
Proof.
  intros (A & B & C) (M & P). unfold read_node. destruct (Z.eqb_spec (nd_code d) tc_Any); [contradiction|].
  destruct n as [z|]; [subst m; destruct (Z.leb_spec z 0); [lia|]|cbn [Z.leb]; change (1 <=? 0) with false; cbv iota];
  rewrite A; (destruct (Z.eqb_spec (nd_code d) tc_Struct); [contradiction|]); reflexivity.
Qed.
Lemma wrapped_read fp t p z y : (p = PInt z \/ p = PUInt z) -> wrapped t z y -> read_scalar fp t p = Some (CV (BNums t [y])).
Proof.
  intros P W. unfold wrapped in W.
  destruct t; cbn [int_dbr] in W; try contradiction; unfold read_scalar; cbv zeta; rewrite ?(as_int fp p z P), ?(as_uint fp p z P); cbn [cv_map]; do 4 f_equal; destruct W as [W1 W2].
  all: first [apply s8_s; [lia|exact W1|exact W2] | apply u8_u; [lia|exact W1|exact W2]].
Qed.
Lemma array_read fp d a t n m sub : tc_isarray (nd_code d) = true -> nd_code d <> tc_Any -> nd_data d = PArr a -> asks n m ->
  read_node fp (Some d) sub t n = option_map (cv_map (fun b => (b, Z.min m (Z.of_nat (arr_size a))))) (read_array fp t a (Z.to_nat (Z.min m (Z.of_nat (arr_size a))))).
Proof.
  intros A B D (M & P). unfold read_node. destruct (Z.eqb_spec (nd_code d) tc_Any); [contradiction|].
  destruct n as [z|]; [subst m; destruct (Z.leb_spec z 0); [lia|]|subst m; change (1 <=? 0) with false; cbv iota]; rewrite A, D; reflexivity.
Qed.
Lemma struct_not_any : (tc_Struct =? tc_Any) = false.
Proof. reflexivity. Qed.
Lemma struct_not_array : tc_isarray tc_Struct = false.
Proof. reflexivity. Qed.
Lemma enum_read fp d t n m sub z : nd_code d = tc_Struct -> nd_id d = bs "enum_t" -> asks n m -> holds_int (sub [bs "index"]) z -> -2147483648 <= z < 2147483648 ->
  read_node fp (Some d) sub t n = option_map (cv_map (fun b => (b, 1))) (read_enum fp t z
     (match sub [bs "choices"] with Some c => match nd_data c with PArr (AStr l) => Some l | PArr ANull => Some [] | _ => None end | None => None end)).
Proof.
  intros C I (M & P) (dx & X & Z0) R. unfold read_node. rewrite C, struct_not_any.
  assert (ID : str_eqb (nd_id d) (bs "enum_t") = true) by (rewrite I; apply str_eqb_refl).
  assert (S : s_cast 4 (s_cast 8 z) = z). { apply (s8_s 4 z z); [lia|change (2 ^ (8 * Z.of_nat 4 - 1)) with 2147483648; lia|]. rewrite Z.sub_diag. apply Z.divide_0_r. }
  destruct n as [q|]; [subst m; destruct (Z.leb_spec q 0); [lia|]|change (1 <=? 0) with false; cbv iota]; rewrite C, struct_not_array, Z.eqb_refl, ID; cbn [andb]; rewrite X, (as_int fp _ z Z0), S; reflexivity.
Qed.
Lemma wrapped_enum fp t z y ch : -2147483648 <= z < 2147483648 -> wrapped t z y -> read_enum fp t z ch = Some (CV (BNums t [y])).
Proof.
  intros R W. unfold wrapped in W.
  destruct t; cbn [int_dbr] in W; try contradiction; unfold read_enum; do 4 f_equal; destruct W as [W1 W2].
  all: try (apply cast_s; [lia|exact W1|exact W2]). all: try (apply cast_u; [exact W1|exact W2]).
  - rewrite <- (cast_s 4 z y); [|lia|exact W1|exact W2]. symmetry. apply cast_s; [lia|change (2 ^ (8 * Z.of_nat 4 - 1)) with 2147483648; lia|]. rewrite Z.sub_diag. apply Z.divide_0_r.
  - rewrite <- (cast_s 8 z y); [|lia|exact W1|exact W2]. symmetry. apply cast_s; [lia|change (2 ^ (8 * Z.of_nat 8 - 1)) with 9223372036854775808; lia|]. rewrite Z.sub_diag. apply Z.divide_0_r.
Qed.
Lemma map_cv_forall2 {A B} (f : A -> cv B) l ys : Forall2 (fun z y => f z = CV y) l ys -> map_cv f l = CV ys.
Proof. intros F. induction F as [|z y l ys H F IH]; [reflexivity|]. cbn. rewrite H, IH. reflexivity. Qed.
Lemma map_forall2 {A B} (f : A -> B) l ys : Forall2 (fun z y => y = f z) l ys -> map f l = ys.
Proof. intros F. induction F as [|z y l ys H F IH]; [reflexivity|]. cbn. rewrite H, IH. reflexivity. Qed.

Definition sub_of (v : img) (cf : conf) (q : list str) : option node :=
  if is_struct (field_at v cf) then match v (path_of (cf_field cf) ++ [bs "value"]) with Some _ => v ((path_of (cf_field cf) ++ [bs "value"]) ++ q) | None => None end
  else match field_at v cf with Some _ => v (path_of (cf_field cf) ++ q) | None => None end.
Lemma sub_part v cf d q : part v cf ["value"%string] = Some d -> sub_of v cf (map bs q) = part v cf ("value"%string :: q).
Proof.
  unfold part, sub_of. destruct (is_struct _); [|discriminate]. cbn [map]. intros E. rewrite E. rewrite <- app_assoc. reflexivity.
Qed.
Lemma gives_read fp v cf t n b m : gives fp v cf t n b m -> read_node fp (value_at v cf) (sub_of v cf) t n = Some (CV (b, m)).
Proof.
  intros G. destruct G as [d z y m V S D N W|d z m V S D N ->|d x m V S D N ->|d x m V S D N ->|d s u m V S D N -> U|d z m V S D N -> U|d c l ys m k V A B D N T K F|d l us m k V A B D N -> K F|d z y m V C I P X R N W|d z l e s u m V C I P X R Y L E N -> U]; rewrite V.
  - rewrite (is_scalar_read fp d t n m) by assumption. rewrite (wrapped_read fp t (nd_data d) z y D W). reflexivity.
  - rewrite (is_scalar_read fp d _ n m) by assumption. unfold read_scalar. destruct D as [-> | ->]; reflexivity.
  - rewrite (is_scalar_read fp d _ n m) by assumption. unfold read_scalar. rewrite D. reflexivity.
  - rewrite (is_scalar_read fp d _ n m) by assumption. unfold read_scalar. rewrite D. reflexivity.
  - rewrite (is_scalar_read fp d _ n m) by assumption. unfold read_scalar. rewrite D. unfold in_40 in U. subst u. reflexivity.
  - rewrite (is_scalar_read fp d _ n m) by assumption. unfold read_scalar. unfold in_40 in U. destruct D as [-> | ->]; cbn [to_text cv_map option_map]; unfold fits40; rewrite <- U; reflexivity.
  - rewrite (array_read fp d (APod c l) t n m) by assumption. cbn [arr_size]. subst k. unfold read_array.
    assert (Q : match t with DString => False | DEnum => False | DNoAccess => False | _ => True end). { destruct T as [T|[T|T]]; [destruct t; try exact Logic.I; exact (T eq_refl)|subst t; exact Logic.I|subst t; exact Logic.I]. }
    rewrite (map_cv_forall2 _ _ _ F). destruct t; try contradiction; reflexivity.
  - rewrite (array_read fp d (AStr l) _ n m) by assumption. cbn [arr_size]. subst k. unfold read_array.
    rewrite (map_forall2 fits40 _ us F). reflexivity.
  - rewrite (enum_read fp d t n m _ z); try assumption; [rewrite (wrapped_enum fp t z y) by assumption; reflexivity|].
    change [bs "index"] with (map bs ["index"%string]). rewrite (sub_part v cf d _ P). exact X.
  - rewrite (enum_read fp d _ n m _ z); try assumption; [|change [bs "index"] with (map bs ["index"%string]); rewrite (sub_part v cf d _ P); exact X|lia].
    change [bs "choices"] with (map bs ["choices"%string]). rewrite (sub_part v cf d _ P), Y, L. unfold read_enum. destruct (Z.leb_spec 0 z); [|lia]. rewrite E. unfold in_40 in U. subst u. reflexivity.
Qed.
Lemma snap_read fp v cf tm sev : time_is v cf tm -> severity_is v cf sev ->
  exists msg, snap_of fp (part v cf ["timeStamp"; "secondsPastEpoch"]%string) (part v cf ["timeStamp"; "nanoseconds"]%string) (part v cf ["alarm"; "severity"]%string) (part v cf ["alarm"; "message"]%string) = CV (tm, sev, msg).
Proof.
  intros T (SV & R & M). unfold snap_of. cbv zeta.
  assert (A : (match part v cf ["timeStamp"; "secondsPastEpoch"]%string with
         | None => CV (0, 0)
         | Some d => match cv_map (u_cast 4) (as_z fp (nd_data d) WUInt) with
                     | CFail r => CFail r
                     | CV s => cv_map (fun ns => (u_cast 4 (s - 631152000), ns)) (match part v cf ["timeStamp"; "nanoseconds"]%string with Some d => cv_map (u_cast 4) (as_z fp (nd_data d) WUInt) | None => CV 0 end)
                     end
         end) = CV tm).
  { destruct T as [[-> ->]|(s & n & (d & -> & D) & N & ->)]; [reflexivity|]. rewrite (as_uint fp _ s D). cbn [cv_map].
    assert (B : u_cast 4 (u_cast 4 (u_cast 8 s) - 631152000) = (s - 631152000) mod 2 ^ 32).
    { unfold u_cast. change (8 * Z.of_nat 4) with 32. change (8 * Z.of_nat 8) with 64. rewrite Zminus_mod_idemp_l.
      assert (E : (s mod 2 ^ 64) = s + (- (s / 2 ^ 64) * 2 ^ 32) * 2 ^ 32). { pose proof (Z.div_mod s (2 ^ 64)). change (2 ^ 64) with (2 ^ 32 * 2 ^ 32) in *. lia. }
      rewrite E. replace (s + - (s / 2 ^ 64) * 2 ^ 32 * 2 ^ 32 - 631152000) with (s - 631152000 + (- (s / 2 ^ 64) * 2 ^ 32) * 2 ^ 32) by lia. apply Z_mod_plus_full. }
    destruct N as [[-> ->]|(e & -> & F)]; [cbn [cv_map]; rewrite B; reflexivity|]. rewrite (as_uint fp _ n F). cbn [cv_map]. rewrite B. do 2 f_equal.
    unfold u_cast. change (8 * Z.of_nat 4) with 32. change (8 * Z.of_nat 8) with 64.
    assert (E : (n mod 2 ^ 64) = n + (- (n / 2 ^ 64) * 2 ^ 32) * 2 ^ 32). { pose proof (Z.div_mod n (2 ^ 64)). change (2 ^ 64) with (2 ^ 32 * 2 ^ 32) in *. lia. }
    rewrite E. apply Z_mod_plus_full. }
  rewrite A. 
  assert (B : (match part v cf ["alarm"; "severity"]%string with Some d => cv_map (u_cast 2) (as_z fp (nd_data d) WUInt) | None => CV 0 end) = CV sev).
  { destruct SV as [[-> ->]|(d & -> & D)]; [reflexivity|]. rewrite (as_uint fp _ sev D). cbn [cv_map]. f_equal. apply (u8_u 2 sev sev); [lia|change (2 ^ (8 * Z.of_nat 2)) with 65536; lia|rewrite Z.sub_diag; apply Z.divide_0_r]. }
  rewrite B. assert (C : s_cast 2 sev = sev). { apply cast_s; [lia|change (2 ^ (8 * Z.of_nat 2 - 1)) with 32768; lia|rewrite Z.sub_diag; apply Z.divide_0_r]. }
  rewrite C. destruct (negb (sev =? 0)); [|exists []; reflexivity]. destruct M as [-> |(d & m & -> & ->)]; [exists []; reflexivity|]. exists m. reflexivity.
Qed.
Lemma alarm_eq m r sev : (if raises m sev then [OSevr r sev] else []) = alarm_for m r sev.
Proof. unfold raises, alarm_for. destruct m; [reflexivity| |]; [destruct (Z.eqb_spec sev 0), (Z.eq_dec sev 0); try contradiction; reflexivity|]. destruct (Z.eqb_spec sev 3) as [-> |]; destruct (Z.eq_dec _ 3); try contradiction; reflexivity. Qed.

(** ** Reading *)
Lemma read_node_ext fp v s s' t n : (forall q, s q = s' q) -> read_node fp v s t n = read_node fp v s' t n.
Proof. intros E. unfold read_node. rewrite !E. reflexivity. Qed.
Lemma reading fp h x i l c w t n b m tm sev :
  reached fp h x -> x_links x i = Some l -> l_chan l = Some c -> latest (taken c (x_out x)) = Some w -> is_struct (field_at w (l_conf l)) = true ->
  gives fp w (l_conf l) t n b m -> time_is w (l_conf l) tm -> severity_is w (l_conf l) sev ->
  exists y, step fp x (EGet i t n) = Some y /\
    x_out y = x_out x ++ alarm_for (cf_sevr (l_conf l)) (l_rec l) sev ++ (if cf_time (l_conf l) then [OTime (l_rec l) tm] else []) ++ [OGet i SOk b m].
Proof.
  intros R L C W ST G T SV. pose proof (inv_reached _ _ _ R) as IV. destruct (i_att _ IV _ _ _ L C) as (k & K & _).
  pose proof (i_see _ IV _ _ K) as S. destruct (k_conn k) eqn:KC; [|congruence]. destruct S as (r & v & w' & RT & W' & SM).
  rewrite W in W'. apply some_inj in W'. subst w'. pose proof (i_fields _ IV _ _ _ _ L C K KC) as TC.
  assert (P : forall q, v q = w q) by exact SM.
  assert (FA : field_at v (l_conf l) = field_at w (l_conf l)) by apply P.
  assert (PA : forall q, part v (l_conf l) q = part w (l_conf l) q) by (intros q; unfold part; rewrite FA, P; reflexivity).
  destruct (fields_of k v l (ex_intro _ r RT) TC) as (F1 & F2 & F3). rewrite FA in F3. destruct (F3 ST) as (F4 & F5 & F6 & F7).
  assert (V : valid k = true). { unfold valid. rewrite KC, RT. destruct r; reflexivity. }
  assert (RV : read_value fp k l t n = Some (CV (b, m))).
  { unfold read_value. rewrite F1. rewrite (read_node_ext fp _ _ (sub_of w (l_conf l))).
    - unfold value_at. rewrite FA, P. apply gives_read. exact G.
    - intros q. rewrite F2. unfold sub_of. rewrite FA, !P. reflexivity. }
  destruct (snap_read fp w (l_conf l) tm sev T SV) as (msg & SN).
  assert (RS : read_snap fp k l = CV (tm, sev, msg)). { unfold read_snap. rewrite F4, F5, F6, F7, !PA. exact SN. }
  eexists. split.
  - cbn [step]. unfold get_value. rewrite L. unfold chan_of. rewrite L, C, K, V. cbn [negb]. rewrite RV, RS. reflexivity.
  - rewrite alarm_eq. reflexivity.
Qed.
Lemma reading_off fp h x i l c t n : reached fp h x -> x_links x i = Some l -> l_chan l = Some c -> latest (taken c (x_out x)) = None ->
  exists y, step fp x (EGet i t n) = Some y /\
    x_out y = x_out x ++ [OSevr (l_rec l) 3] ++ (if cf_time (l_conf l) then [OTime (l_rec l) (s_time l)] else []) ++ [OGet i SFail BNone (match n with Some z => z | None => 1 end)].
Proof.
  intros R L C W. pose proof (inv_reached _ _ _ R) as IV. destruct (i_att _ IV _ _ _ L C) as (k & K & _).
  pose proof (i_see _ IV _ _ K) as S. destruct (k_conn k) eqn:KC; [destruct S as (? & ? & ? & _ & E & _); congruence|].
  eexists. split; [cbn [step]; unfold get_value; rewrite L; unfold chan_of; rewrite L, C, K; unfold valid; rewrite KC; reflexivity|reflexivity].
Qed.
