(** Lemmas about text functions. *)
From Coq Require Import ZArith List Bool Lia ZifyBool ZifyNat.
From Verif Require Import Base BaseProofs WireModel TextModel TextSpec.
Import ListNotations.
Local Open Scope Z_scope.

Definition dig (base c : Z) : Prop := digit_val c < base.
Lemma digit_val_spec base c v : base <= 16 -> (is_digit_of base c v <-> digit_val c = v /\ dig base c).
Proof.
  intro B. unfold is_digit_of, dig, digit_val. split.
  - intros (R & [(-> & H)|[(-> & H)|(-> & H)]]);
      repeat match goal with |- context [if ?b then _ else _] => destruct b eqn:? end; lia.
  - intros (E & D).
    repeat match goal with H : context [if ?b then _ else _] |- _ => destruct b eqn:? end; lia.
Qed.
Lemma digit_val_nonneg c : 0 <= digit_val c.
Proof. unfold digit_val. repeat match goal with |- context [if ?b then _ else _] => destruct b eqn:? end; lia. Qed.

Definition value_from (base acc : Z) (s : str) : Z := fold_left (fun a c => a * base + digit_val c) s acc.
Lemma digits_spec base s : forall acc, exists ds r, s = ds ++ r /\ Forall (dig base) ds /\
  (forall c r', r = c :: r' -> ~ dig base c) /\ digits base acc s = (value_from base acc ds, negb (is_nil ds), r).
Proof.
  induction s as [|c s IH]; intro acc.
  - exists [], []. repeat split; auto; try easy.
  - cbn [digits]. destruct (Z.ltb_spec (digit_val c) base) as [H|H].
    + destruct (IH (acc * base + digit_val c)) as (ds & r & -> & F & N & E). rewrite E.
      exists (c :: ds), r. repeat split; auto.
    + exists [], (c :: s). repeat split; auto. intros c' r' E. inversion E; subst. unfold dig. lia.
Qed.
Lemma digits_exact base ds r : Forall (dig base) ds -> (forall c r', r = c :: r' -> ~ dig base c) ->
  forall acc, digits base acc (ds ++ r) = (value_from base acc ds, negb (is_nil ds), r).
Proof.
  intros F N. induction F as [|c ds D F IH]; intro acc; cbn [app].
  - destruct r as [|c r]; [reflexivity|]. cbn [digits]. specialize (N c r eq_refl). unfold dig in N.
    destruct (Z.ltb_spec (digit_val c) base); [lia|reflexivity].
  - cbn [digits]. unfold dig in D. destruct (Z.ltb_spec (digit_val c) base); [|lia]. now rewrite IH.
Qed.
Lemma numeral_spec base s v : base <= 16 -> (numeral base s v <-> s <> [] /\ Forall (dig base) s /\ value_from base 0 s = v).
Proof.
  intro B. split.
  - induction 1 as [c v D|s v c d N IH D].
    + apply digit_val_spec in D as [<- D]; [|exact B]. repeat split; try easy. auto.
    + apply digit_val_spec in D as [<- D]; [|exact B]. destruct IH as (E & F & V). split; [now destruct s|].
      split; [apply Forall_app; auto|]. unfold value_from in *. rewrite fold_left_app. cbn [fold_left]. now rewrite V.
  - intros (E & F & V). subst v. induction s as [|c s IH] using rev_ind; [easy|].
    apply Forall_app in F as [F1 F2]. inversion F2; subst.
    unfold value_from. rewrite fold_left_app. cbn [fold_left]. destruct s as [|x s].
    + cbn [fold_left app]. constructor. apply digit_val_spec; auto.
    + apply num_more; [apply IH; easy || auto|]. apply digit_val_spec; auto.
Qed.
Lemma value_from_nonneg base s : 0 <= base -> forall acc, 0 <= acc -> 0 <= value_from base acc s.
Proof.
  intros B. induction s as [|c s IH]; intros acc A; cbn; [exact A|]. apply IH. pose proof (digit_val_nonneg c). nia.
Qed.

(** ** strto *)
Lemma skip_space_spec s : exists a, s = a ++ skip_space s /\ spaces a /\ (forall c r, skip_space s = c :: r -> is_space c = false).
Proof.
  induction s as [|c s IH]; [exists []; repeat split; try easy; constructor|]. cbn [skip_space]. destruct (is_space c) eqn:E.
  - destruct IH as (a & H1 & H2 & H3). exists (c :: a). split; [cbn; congruence|]. split; [now constructor|exact H3].
  - exists []. split; [reflexivity|]. split; [constructor|]. intros x r H. inversion H; now subst.
Qed.
Lemma skip_space_app a s : spaces a -> (forall c r, s = c :: r -> is_space c = false) -> skip_space (a ++ s) = s.
Proof.
  induction 1 as [|c a H _ IH]; intro N; cbn [app].
  - destruct s as [|c s]; [reflexivity|]. cbn [skip_space]. now rewrite (N c s eq_refl).
  - cbn [skip_space]. now rewrite H, IH.
Qed.
Lemma skip_space_all a : spaces a <-> skip_space a = [].
Proof.
  split.
  - intro H. rewrite <- (app_nil_r a). apply skip_space_app; [exact H|easy].
  - destruct (skip_space_spec a) as (b & E & S & _). intro H. rewrite H, app_nil_r in E. now subst.
Qed.

Lemma space_not_dig c base : is_space c = true -> base <= 16 -> ~ dig base c.
Proof. unfold is_space, dig, digit_val. intros H B. repeat match goal with |- context [if ?b then _ else _] => destruct b eqn:? end; lia. Qed.
Lemma spaces_stop b base : spaces b -> base <= 16 -> forall c r, b = c :: r -> ~ dig base c.
Proof. intros S B c r ->. inversion S; subst. now apply space_not_dig. Qed.

(** the number proper *)
Definition num_part (s2 : str) : Z * bool * str :=
  match s2 with
  | 48 :: x :: h :: _ =>
      if ((x =? 120) || (x =? 88)) && (digit_val h <? 16)
      then digits 16 0 (tl (tl s2)) else digits 8 0 s2
  | 48 :: _ => digits 8 0 s2
  | _ => digits 10 0 s2
  end.
Lemma num_part_dec c s : c <> 48 -> num_part (c :: s) = digits 10 0 (c :: s).
Proof. intro H. unfold num_part. destruct c as [|p|p]; try reflexivity. do 6 (destruct p as [p|p|]; try reflexivity). exfalso; apply H; reflexivity. Qed.
Lemma num_part_zero s : num_part (48 :: s) =
  match s with
  | x :: h :: _ => if ((x =? 120) || (x =? 88)) && (digit_val h <? 16) then digits 16 0 (tl s) else digits 8 0 (48 :: s)
  | _ => digits 8 0 (48 :: s)
  end.
Proof. destruct s as [|x [|h s]]; reflexivity. Qed.

Lemma num_part_in m v b : magnitude m v -> spaces b -> num_part (m ++ b) = (v, true, b).
Proof.
  intros M S. destruct M as [c s v NZ N|s v N|x s v X N]; cbn [app].
  - rewrite num_part_dec by exact NZ. apply numeral_spec in N as (E & F & <-); [|lia].
    change (c :: s ++ b) with ((c :: s) ++ b). rewrite digits_exact; auto. now apply spaces_stop.
  - apply numeral_spec in N as (E & F & <-); [|lia].
    assert (EX : digits 8 0 (48 :: s ++ b) = (value_from 8 0 (48 :: s), true, b)).
    { change (48 :: s ++ b) with ((48 :: s) ++ b). rewrite digits_exact; auto. apply spaces_stop; auto. lia. }
    rewrite num_part_zero. destruct (s ++ b) as [|x [|h r]] eqn:A; auto.
    destruct (((x =? 120) || (x =? 88)) && (digit_val h <? 16)) eqn:C; auto. exfalso.
    assert (X : x = 120 \/ x = 88) by lia. destruct s as [|y s].
    + cbn in A. subst b. inversion S; subst. unfold is_space in *. lia.
    + cbn in A. inversion A; subst. inversion F as [|? ? _ F']; subst. inversion F' as [|? ? D _]; subst. unfold dig in D.
      destruct X; subst x; cbn in D; lia.
  - apply numeral_spec in N as (E & F & <-); [|lia]. rewrite num_part_zero. destruct s as [|h s]; [easy|]. cbn [app].
    inversion F as [|? ? D F']; subst. unfold dig in D. replace (((x =? 120) || (x =? 88)) && (digit_val h <? 16)) with true by lia.
    cbn [tl]. change (h :: s ++ b) with ((h :: s) ++ b). rewrite digits_exact; auto. apply spaces_stop; auto. lia.
Qed.
Lemma num_part_out s v r : num_part s = (v, true, r) -> exists m, s = m ++ r /\ magnitude m v.
Proof.
  destruct s as [|c s]; [cbn; discriminate|]. destruct (Z.eq_dec c 48) as [->|NZ].
  - rewrite num_part_zero. intro H.
    assert (OCT : digits 8 0 (48 :: s) = (v, true, r) -> exists m, 48 :: s = m ++ r /\ magnitude m v).
    { intro D. destruct (digits_spec 8 (48 :: s) 0) as (ds & r' & E & F & _ & G). rewrite D in G. inversion G; subst.
      exists ds. split; [exact E|]. destruct ds as [|d ds]; [discriminate|]. cbn in E. inversion E; subst.
      apply mag_oct. apply numeral_spec; [lia|]. repeat split; auto. discriminate. }
    destruct s as [|x [|h t]]; auto. destruct (((x =? 120) || (x =? 88)) && (digit_val h <? 16)) eqn:C; auto.
    cbn [tl] in H. destruct (digits_spec 16 (h :: t) 0) as (ds & r' & E & F & _ & G). rewrite H in G. inversion G; subst.
    exists (48 :: x :: ds). split; [cbn; congruence|]. apply mag_hex; [lia|]. apply numeral_spec; [lia|].
    destruct ds; [discriminate|]. repeat split; auto. discriminate.
  - rewrite num_part_dec by exact NZ. intro H. destruct (digits_spec 10 (c :: s) 0) as (ds & r' & E & F & _ & G). rewrite H in G.
    inversion G; subst. exists ds. split; [exact E|]. destruct ds as [|d ds]; [discriminate|]. cbn in E. inversion E; subst.
    apply mag_dec; [exact NZ|]. apply numeral_spec; [lia|]. repeat split; auto. discriminate.
Qed.
Lemma magnitude_nonneg m v : magnitude m v -> 0 <= v.
Proof.
  intros [c s v' _ N|s v' N|x s v' _ N]; apply numeral_spec in N as (_ & _ & <-); try lia; apply value_from_nonneg; lia.
Qed.
Lemma magnitude_first m v : magnitude m v -> exists c r, m = c :: r /\ is_space c = false /\ c <> 45 /\ c <> 43.
Proof.
  assert (D : forall c, dig 10 c -> is_space c = false /\ c <> 45 /\ c <> 43).
  { intros c. unfold dig, digit_val, is_space. repeat match goal with |- context [if ?b then _ else _] => destruct b eqn:? end; lia. }
  intros [c s v' _ N|s v' N|x s v' _ N].
  - apply numeral_spec in N as (_ & F & _); [|lia]. inversion F; subst. destruct (D c) as (? & ? & ?); auto. eauto 6.
  - exists 48, s. repeat split; discriminate.
  - exists 48, (x :: s). repeat split; discriminate.
Qed.

Definition sign_of (s1 : str) : bool * str :=
  match s1 with
  | 45 :: r => (true, r)
  | 43 :: r => (false, r)
  | _ => (false, s1)
  end.
Lemma sign_plain c r : c <> 45 -> c <> 43 -> sign_of (c :: r) = (false, c :: r).
Proof. intros A B. unfold sign_of. destruct c as [|p|p]; try reflexivity. do 6 (destruct p as [p|p|]; try reflexivity); [exfalso; apply B; reflexivity|exfalso; apply A; reflexivity]. Qed.
Lemma strto_eq s : strto s = let '(neg, s2) := sign_of (skip_space s) in let '(v, any, rest) := num_part s2 in
  if any then Some (neg, v, rest) else None.
Proof. reflexivity. Qed.

Lemma strto_in s z : denotes s z -> exists neg v b, strto s = Some (neg, v, b) /\ spaces b /\ z = (if neg then - v else v) /\ 0 <= v.
Proof.
  intros [a m b v A M B|a m b v A M B|a m b v A M B]; rewrite strto_eq.
  - destruct (magnitude_first m v M) as (c & r & E & S & N1 & N2).
    rewrite skip_space_app; [|exact A|subst m; cbn; intros x y Q; inversion Q; now subst].
    subst m. cbn [app]. rewrite sign_plain by assumption. change (c :: r ++ b) with ((c :: r) ++ b).
    rewrite (num_part_in _ v b) by assumption. exists false, v, b. repeat split; auto. now apply magnitude_nonneg in M.
  - rewrite skip_space_app; [|exact A|intros x y Q; now inversion Q]. cbn [sign_of].
    rewrite (num_part_in _ v b) by assumption. exists false, v, b. repeat split; auto. now apply magnitude_nonneg in M.
  - rewrite skip_space_app; [|exact A|intros x y Q; now inversion Q]. cbn [sign_of].
    rewrite (num_part_in _ v b) by assumption. exists true, v, b. repeat split; auto. now apply magnitude_nonneg in M.
Qed.
Lemma sign_cases s1 : (exists r, s1 = 45 :: r /\ sign_of s1 = (true, r)) \/ (exists r, s1 = 43 :: r /\ sign_of s1 = (false, r)) \/
  sign_of s1 = (false, s1).
Proof.
  destruct s1 as [|c r]; [now right; right|]. destruct (Z.eq_dec c 45) as [->|A]; [left; now exists r|].
  destruct (Z.eq_dec c 43) as [->|B]; [right; left; now exists r|]. right. right. now apply sign_plain.
Qed.
Lemma strto_out s neg v b : strto s = Some (neg, v, b) -> spaces b -> denotes s (if neg then - v else v) /\ 0 <= v.
Proof.
  rewrite strto_eq. intros H B. destruct (skip_space_spec s) as (a & E & A & _).
  destruct (sign_cases (skip_space s)) as [(r & K & Q)|[(r & K & Q)|Q]]; rewrite Q in H;
    destruct (num_part _) as [[v' any] rest] eqn:N in H; destruct any; try discriminate; injection H as <- -> ->;
    apply num_part_out in N as (m & EM & M); (split; [|now apply magnitude_nonneg in M]).
  - rewrite E, K, EM. now apply den_minus.
  - rewrite E, K, EM. now apply den_plus.
  - rewrite E, EM. now apply den_plain.
Qed.

Lemma is_nil_iff {A} (l : list A) : is_nil l = true <-> l = [].
Proof. now destruct l. Qed.

Lemma parse_i64_spec s z : parse_i64 s = Some z <-> denotes s z /\ - 2 ^ 63 <= z < 2 ^ 63.
Proof.
  unfold parse_i64, stoll. split.
  - destruct (strto s) as [[[neg v] b]|] eqn:E; [|discriminate]. cbv zeta.
    destruct ((- 2 ^ 63 <=? (if neg then - v else v)) && ((if neg then - v else v) <? 2 ^ 63)) eqn:R; [|discriminate].
    destruct (is_nil (skip_space b)) eqn:B; [|discriminate]. intro H. injection H as <-.
    apply is_nil_iff, skip_space_all in B. destruct (strto_out _ _ _ _ E B) as [D _]. split; [exact D|]. lia.
  - intros (D & R). destruct (strto_in s z D) as (neg & v & b & -> & B & -> & V). cbv zeta.
    replace ((- 2 ^ 63 <=? (if neg then - v else v)) && ((if neg then - v else v) <? 2 ^ 63)) with true by lia.
    apply skip_space_all in B. now rewrite B.
Qed.
Lemma parse_u64_spec s u : parse_u64 s = Some u <-> exists z, denotes s z /\ - 2 ^ 64 < z < 2 ^ 64 /\ u = z mod 2 ^ 64.
Proof.
  unfold parse_u64, stoull. split.
  - destruct (strto s) as [[[neg v] b]|] eqn:E; [|discriminate].
    destruct (Z.leb_spec (2 ^ 64) v); [discriminate|].
    destruct (is_nil (skip_space b)) eqn:B; [|discriminate]. intro Q. injection Q as <-.
    apply is_nil_iff, skip_space_all in B. destruct (strto_out _ _ _ _ E B) as [D V].
    exists (if neg then - v else v). split; [exact D|]. split; [destruct neg; lia|].
    destruct neg; [reflexivity|]. symmetry. apply Z.mod_small. lia.
  - intros (z & D & R & ->). destruct (strto_in s z D) as (neg & v & b & -> & B & -> & V).
    destruct (Z.leb_spec (2 ^ 64) v); [destruct neg; lia|].
    apply skip_space_all in B. rewrite B. cbn [is_nil]. f_equal. destruct neg; [reflexivity|]. symmetry. apply Z.mod_small. lia.
Qed.

(** ** printing *)
Lemma print_pos_spec fuel : forall z, 0 < z -> z < 2 ^ Z.of_nat fuel ->
  exists c r, print_pos fuel z = c :: r /\ c <> 48 /\ numeral 10 (c :: r) z.
Proof.
  assert (D : forall v, 0 <= v < 10 -> is_digit_of 10 (48 + v) v) by (unfold is_digit_of; intros; lia).
  induction fuel as [|f IH]; intros z P B; [cbn in B; lia|].
  cbn [print_pos]. destruct (Z.ltb_spec z 10).
  - rewrite Z.mod_small by lia. exists (48 + z), []. cbn [app]. split; [reflexivity|]. split; [lia|]. constructor. apply D. lia.
  - replace (Z.of_nat (S f)) with (Z.of_nat f + 1) in B by lia. rewrite Z.pow_add_r in B by lia.
    destruct (IH (z / 10)) as (c & r & E & N & M).
    + apply Z.div_str_pos. lia.
    + apply Z.div_lt_upper_bound; lia.
    + rewrite E. exists c, (r ++ [48 + z mod 10]). split; [reflexivity|]. split; [exact N|].
      rewrite (Z.div_mod z 10) at 2 by lia. rewrite (Z.mul_comm 10).
      change (c :: r ++ [48 + z mod 10]) with ((c :: r) ++ [48 + z mod 10]). apply num_more; [exact M|]. apply D.
      apply Z.mod_pos_bound. lia.
Qed.
Lemma print_fuel z : 0 < z -> z < 2 ^ Z.of_nat (S (Z.to_nat (Z.log2 z))).
Proof. intro P. pose proof (Z.log2_spec z P). pose proof (Z.log2_nonneg z). replace (Z.of_nat (S (Z.to_nat (Z.log2 z)))) with (Z.succ (Z.log2 z)) by lia. lia. Qed.
Lemma print_int_spec z : decimal_text (print_int z) z.
Proof.
  unfold print_int, decimal_text. destruct (Z.ltb_spec z 0).
  - right. right. destruct (print_pos_spec _ (- z) ltac:(lia) (print_fuel (- z) ltac:(lia))) as (c & r & -> & N & M).
    exists c, r. repeat split; auto.
  - destruct (Z.eq_dec z 0) as [->|NZ]; [left; split; reflexivity|]. right. left.
    destruct (print_pos_spec _ z ltac:(lia) (print_fuel z ltac:(lia))) as (c & r & -> & N & M).
    exists c, r. repeat split; auto. lia.
Qed.
Lemma decimal_denotes s z : decimal_text s z -> denotes s z.
Proof.
  assert (N : spaces []) by constructor.
  intros [(-> & ->)|[(c & r & -> & C & M & _)|(c & r & -> & C & M & _)]].
  - apply (den_plain [] [48] []); auto. apply mag_oct. constructor. unfold is_digit_of. lia.
  - rewrite <- (app_nil_r (c :: r)). apply (den_plain [] (c :: r) []); auto. now apply mag_dec.
  - replace z with (- - z) by lia. rewrite <- (app_nil_r (c :: r)). apply (den_minus [] (c :: r) []); auto. now apply mag_dec.
Qed.

(** a text denotes one number *)
Lemma denotes_inj s a b : denotes s a -> denotes s b -> a = b.
Proof.
  intros A B. destruct (strto_in s a A) as (n1 & v1 & b1 & E1 & _ & -> & _).
  destruct (strto_in s b B) as (n2 & v2 & b2 & E2 & _ & -> & _). rewrite E1 in E2. now inversion E2.
Qed.

(** ** escaping *)
Lemma escape_char_printable c : 0 <= c < 256 -> Forall printable (escape_char c).
Proof.
  intro R. unfold escape_char, printable.
  assert (Q : 0 <= c / 16 < 16) by (split; [apply Z.div_pos; lia|apply Z.div_lt_upper_bound; lia]).
  assert (M : 0 <= c mod 16 < 16) by (apply Z.mod_pos_bound; lia).
  assert (HX : forall d, 0 <= d < 16 -> 32 <= hex_digit d <= 126) by (intro d; unfold hex_digit; destruct (Z.ltb_spec d 10); lia).
  repeat match goal with |- context [if ?b then _ else _] => destruct b eqn:? end; repeat constructor; try lia; apply HX; assumption.
Qed.
Lemma hex_val_digit d : 0 <= d < 16 -> hex_val (hex_digit d) = Some d.
Proof. intro R. unfold hex_val, hex_digit. destruct (Z.ltb_spec d 10); repeat match goal with |- context [if ?b then _ else _] => destruct b eqn:? end; try lia; f_equal; lia. Qed.
Lemma unescape_plain c r : c <> 92 -> unescape (c :: r) = match unescape r with Some t => Some (c :: t) | None => None end.
Proof. intro H. cbn [unescape]. destruct c as [|p|p]; try reflexivity. do 7 (destruct p as [p|p|]; try reflexivity). exfalso; apply H; reflexivity. Qed.
Lemma unescape_char c r : 0 <= c < 256 -> unescape (escape_char c ++ r) = match unescape r with Some t => Some (c :: t) | None => None end.
Proof.
  intro R. unfold escape_char.
  assert (Q : 0 <= c / 16 < 16) by (split; [apply Z.div_pos; lia|apply Z.div_lt_upper_bound; lia]).
  assert (M : 0 <= c mod 16 < 16) by (apply Z.mod_pos_bound; lia).
  repeat match goal with |- context [if ?x =? ?k then _ else _] => destruct (Z.eqb_spec x k) as [->|?]; [reflexivity|] end.
  destruct ((32 <=? c) && (c <=? 126)) eqn:P.
  - cbn [app]. now apply unescape_plain.
  - cbn [app unescape]. rewrite !hex_val_digit by assumption. destruct (unescape r); [|reflexivity]. repeat f_equal.
    rewrite (Z.div_mod c 16) at 3; lia.
Qed.
Lemma literal_plain c r : c <> 92 -> c <> 34 ->
  literal_end (c :: r) = match literal_end r with Some (t, r') => Some (c :: t, r') | None => None end.
Proof.
  intros H K. cbn [literal_end]. destruct c as [|p|p]; try reflexivity.
  do 7 (try (destruct p as [p|p|]; try reflexivity; try (exfalso; first [apply H; reflexivity|apply K; reflexivity]))).
Qed.
Lemma literal_char c r : 0 <= c < 256 ->
  literal_end (escape_char c ++ r) = match literal_end r with Some (t, r') => Some (escape_char c ++ t, r') | None => None end.
Proof.
  intro H. unfold escape_char.
  repeat match goal with |- context [if ?b then _ else _] => destruct b eqn:?; [try (cbn [app literal_end]; destruct (literal_end r) as [(?, ?)|]; reflexivity)|] end.
  - cbn [app]. rewrite literal_plain by lia. destruct (literal_end r) as [(?, ?)|]; reflexivity.
  - cbn [app]. change (literal_end (92 :: 120 :: hex_digit (c / 16) :: hex_digit (c mod 16) :: r))
      with (match literal_end (hex_digit (c / 16) :: hex_digit (c mod 16) :: r) with Some (t, r') => Some (92 :: 120 :: t, r') | None => None end).
    assert (HX : forall d, 0 <= d < 16 -> hex_digit d <> 92 /\ hex_digit d <> 34) by (intros d D; unfold hex_digit; destruct (d <? 10) eqn:?; lia).
    destruct (HX (c / 16)) as (A & B); [split; [apply Z.div_pos; lia|apply Z.div_lt_upper_bound; lia]|].
    destruct (HX (c mod 16)) as (A' & B'); [apply Z.mod_pos_bound; lia|].
    rewrite !literal_plain by assumption. destruct (literal_end r) as [(?, ?)|]; reflexivity.
Qed.
Lemma unescape_escape s : is_bytes s -> unescape (escape s) = Some s.
Proof.
  induction 1 as [|c s B _ IH]; [reflexivity|]. unfold escape in *. cbn [flat_map]. rewrite unescape_char by exact B. now rewrite IH.
Qed.

(** ** lines *)
Lemma take_line_spec s : s = fst (take_line s) ++ snd (take_line s) /\ line_text (fst (take_line s)) /\
  (forall c r, snd (take_line s) = c :: r -> c = 10 \/ c = 13).
Proof.
  unfold line_text. induction s as [|c s IH]; [cbn; repeat split; try easy; intuition|]. cbn [take_line].
  destruct ((c =? 10) || (c =? 13)) eqn:E.
  - cbn. repeat split; try easy; try tauto. intros x r Q. inversion Q; subst. lia.
  - destruct (take_line s) as [l r]. cbn [fst snd] in *. destruct IH as (-> & (N1 & N2) & S). cbn [app].
    repeat split; auto; cbn; intros [Q|Q]; auto; lia.
Qed.

Lemma take_line_exact l r : line_text l -> (forall c r', r = c :: r' -> c = 10 \/ c = 13) -> take_line (l ++ r) = (l, r).
Proof.
  unfold line_text. induction l as [|c l IH]; intros (N1 & N2) H; cbn [app].
  - destruct r as [|c r]; [reflexivity|]. cbn [take_line]. destruct (H c r eq_refl); subst; reflexivity.
  - cbn [take_line]. replace ((c =? 10) || (c =? 13)) with false by (cbn in N1, N2; lia).
    rewrite IH; [reflexivity| |exact H]. cbn in N1, N2. tauto.
Qed.

Lemma skip_eol_in e r : e = [10] \/ e = [13; 10] -> (e = [10] -> forall r', r <> 13 :: r') -> skip_eol (e ++ r) = r.
Proof.
  intros [->| ->] H; cbn [app].
  - specialize (H eq_refl). destruct r as [|c r]; [reflexivity|]. destruct (Z.eq_dec c 13) as [->|N]; [now elim (H r)|].
    unfold skip_eol. destruct c as [|p|p]; try reflexivity. do 4 (destruct p as [p|p|]; try reflexivity). exfalso; apply N; reflexivity.
  - reflexivity.
Qed.
Definition ended (e : str) (ls : list str) : str := flat_map (fun l => l ++ e) ls.
Lemma split_lines_in e ls last : (e = [10] \/ e = [13; 10]) -> Forall line_text ls -> line_text last ->
  forall fuel, (length ls < fuel)%nat -> split_lines fuel (ended e ls ++ last) = Some (ls ++ (if is_nil last then [] else [last])).
Proof.
  intros E F L. induction F as [|l ls T F IH]; intros fuel G.
  - cbn [ended flat_map app]. destruct last as [|c r]; [destruct fuel; reflexivity|]. destruct fuel as [|f]; [lia|].
    cbn [is_nil split_lines]. rewrite <- (app_nil_r (c :: r)) at 1. rewrite take_line_exact; [|exact L|easy]. cbn [skip_eol].
    destruct f; reflexivity.
  - destruct fuel as [|f]; [cbn in G; lia|]. cbn [length] in G.
    assert (X : ended e (l :: ls) ++ last = l ++ (e ++ ended e ls ++ last)) by (unfold ended; cbn [flat_map]; now rewrite <- !app_assoc).
    rewrite X. cbn [split_lines].
    assert (NE : l ++ e ++ ended e ls ++ last <> []) by (destruct E as [->| ->]; destruct l; discriminate).
    destruct (l ++ e ++ ended e ls ++ last) as [|z0 zr] eqn:Z0; [easy|]. rewrite <- Z0.
    rewrite take_line_exact; [|exact T|destruct E as [->| ->]; cbn; intros c r' Q; inversion Q; auto].
    rewrite skip_eol_in; [|exact E|].
    + rewrite IH by lia. reflexivity.
    + intros -> r' Q. destruct ls as [|l2 ls]; cbn [ended flat_map app] in Q.
      * destruct L as [_ L]. apply L. rewrite Q. now left.
      * inversion F as [|? ? (_ & N) _]; subst. destruct l2 as [|c l2]; cbn in Q; [discriminate|]. inversion Q; subst. apply N. now left.
Qed.
Lemma split_lines_stuck l r : line_text l -> (forall r', r <> 10 :: r') -> forall fuel, split_lines fuel (l ++ 13 :: r) = None.
Proof.
  intros L N fuel. revert l L. induction fuel as [|f IH]; intros l L.
  - destruct l; reflexivity.
  - assert (NE : l ++ 13 :: r <> []) by (destruct l; discriminate).
    cbn [split_lines]. destruct (l ++ 13 :: r) as [|z0 zr] eqn:Z0; [easy|]. rewrite <- Z0.
    rewrite take_line_exact; [|exact L|intros c r' Q; inversion Q; auto].
    assert (skip_eol (13 :: r) = 13 :: r) as ->.
    { destruct r as [|c r]; [reflexivity|]. unfold skip_eol. destruct (Z.eq_dec c 10) as [->|X]; [now elim (N r)|].
      destruct c as [|p|p]; try reflexivity. do 4 (destruct p as [p|p|]; try reflexivity). exfalso; apply X; reflexivity. }
    specialize (IH []). cbn [app] in IH. rewrite IH; [reflexivity|]. split; easy.
Qed.

(** ** difference *)
Lemma diff_search_ok ls rs : forall fuel dist c,
  (dist <= length ls + length rs)%nat -> (c <= S dist)%nat -> (dist = length ls + length rs -> c <= length ls)%nat ->
  ((length ls + length rs - dist) * (length ls + length rs + 2) + (length ls + length rs + 2 - c) <= fuel)%nat ->
  exists r, diff_search fuel ls rs dist c = Some r /\
    match r with Done => True | Match l r => (l < length ls)%nat /\ (r < length rs)%nat /\ nth l ls [] = nth r rs [] end.
Proof.
  set (n := (length ls + length rs)%nat). induction fuel as [|f IH]; intros dist c D C E F.
  - exfalso. pose proof (Nat.le_0_l ((n - dist) * (n + 2))). lia.
  - pose proof (Nat.le_0_l ((n - dist) * (n + 2))). cbn [diff_search]. destruct (Nat.ltb_spec dist c) as [G|G].
    + assert (c = S dist) by lia. subst c. assert (dist < n)%nat by lia. apply IH; try lia.
      replace (n - dist)%nat with (S (n - S dist)) in F by lia. rewrite Nat.mul_succ_l in F. lia.
    + destruct (Nat.leb_spec (length ls) c) as [A|A]; destruct (Nat.leb_spec (length rs) (dist - c)) as [B|B]; cbn [andb orb].
      * exists Done. split; [reflexivity|exact I].
      * apply IH; lia.
      * apply IH; lia.
      * destruct (str_eqb _ _) eqn:Q.
        -- exists (Match c (dist - c)). split; [reflexivity|]. apply str_eqb_eq in Q. repeat split; auto.
        -- apply IH; lia.
Qed.
Lemma diff_search_total ls rs : exists r, diff_search (diff_fuel ls rs) ls rs 0 0 = Some r /\
    match r with Done => True | Match l r => (l < length ls)%nat /\ (r < length rs)%nat /\ nth l ls [] = nth r rs [] end.
Proof. apply diff_search_ok; try lia. unfold diff_fuel. cbv zeta. nia. Qed.

Lemma left_app a b : left_side (a ++ b) = left_side a ++ left_side b.
Proof. unfold left_side. now rewrite filter_app, map_app. Qed.
Lemma right_app a b : right_side (a ++ b) = right_side a ++ right_side b.
Proof. unfold right_side. now rewrite filter_app, map_app. Qed.
Lemma left_removed l : left_side (map (pair Removed) l) = l.
Proof. unfold left_side. induction l as [|x l IH]; cbn; congruence. Qed.
Lemma left_added l : left_side (map (pair Added) l) = [].
Proof. unfold left_side. induction l as [|x l IH]; cbn; congruence. Qed.
Lemma right_removed l : right_side (map (pair Removed) l) = [].
Proof. unfold right_side. induction l as [|x l IH]; cbn; congruence. Qed.
Lemma right_added l : right_side (map (pair Added) l) = l.
Proof. unfold right_side. induction l as [|x l IH]; cbn; congruence. Qed.
Lemma nth_split_at l (ls : list str) : (l < length ls)%nat -> ls = firstn l ls ++ nth l ls [] :: skipn (S l) ls.
Proof. revert ls. induction l as [|l IH]; intros [|x ls] H; cbn [length] in H; try lia; [reflexivity|]. cbn [firstn nth app]. f_equal. cbn [skipn]. apply IH. lia. Qed.

Lemma diff_lines_ok fuel : forall ls rs, (length ls <= fuel)%nat ->
  exists out, diff_lines fuel ls rs = Some out /\ left_side out = ls /\ right_side out = rs.
Proof.
  assert (T : forall ls rs, exists out, Some (map (pair Removed) ls ++ map (pair Added) rs) = Some out /\ left_side out = ls /\ right_side out = rs).
  { intros. eexists. split; [reflexivity|]. rewrite left_app, right_app, left_removed, left_added, right_removed, right_added, app_nil_r. split; reflexivity. }
  induction fuel as [|f IH]; intros ls rs F.
  - destruct ls; [|cbn in F; lia]. exact (T [] rs).
  - cbn [diff_lines]. cbv zeta. destruct ls as [|x ls]; [exact (T [] rs)|]. destruct rs as [|y rs]; [exact (T (x :: ls) [])|].
    destruct (diff_search_total (x :: ls) (y :: rs)) as (r & -> & H). destruct r as [l r|]; [|exact (T (x :: ls) (y :: rs))].
    destruct H as (A & B & E). destruct (IH (skipn (S l) (x :: ls)) (skipn (S r) (y :: rs))) as (out & -> & OL & OR).
    { rewrite skipn_length. cbn [length] in *. lia. }
    eexists. split; [reflexivity|]. rewrite !left_app, !right_app, left_removed, left_added, right_removed, right_added. cbn [app].
    split.
    + change (left_side ((Same, nth l (x :: ls) []) :: out)) with (nth l (x :: ls) [] :: left_side out). rewrite OL.
      symmetry. now apply nth_split_at.
    + change (right_side ((Same, nth l (x :: ls) []) :: out)) with (nth l (x :: ls) [] :: right_side out). rewrite OR, E.
      symmetry. now apply nth_split_at.
Qed.
Lemma diff_lines_same ls : diff_lines (length ls) ls ls = Some (map (pair Same) ls).
Proof.
  induction ls as [|x ls IH]; [reflexivity|]. cbn [length diff_lines]. cbv zeta.
  assert (diff_search (diff_fuel (x :: ls) (x :: ls)) (x :: ls) (x :: ls) 0 0 = Some (Match 0 0)) as ->.
  { unfold diff_fuel. cbv zeta. cbn [length Nat.add Nat.mul]. cbn [diff_search]. cbn [Nat.ltb Nat.leb Nat.sub length andb orb nth]. now rewrite str_eqb_refl. }
  cbn [skipn]. rewrite IH. reflexivity.
Qed.
