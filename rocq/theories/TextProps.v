(** Theorems on text: C43 (escaping), C44 (numbers), C58 (line difference),
    C59 (line splitting). *)
From Coq Require Import String ZArith List Bool Lia ZifyBool ZifyNat.
From Verif Require Import Base BaseProofs WireModel TextModel TextSpec TextProofs.
Import ListNotations.
Local Open Scope Z_scope.

(** ** C43 *)
Theorem C43_escaped_printable : forall s, is_bytes s -> Forall printable (escape s).
Proof.
  intros s B. unfold escape. induction B as [|c s H _ IH]; [constructor|]. cbn [flat_map]. apply Forall_app. split; [|exact IH].
  now apply escape_char_printable.
Qed.
Theorem C43_escape_readable : forall s, is_bytes s -> unescape (escape s) = Some s.
Proof. exact unescape_escape. Qed.
Theorem C43_escape_injective : forall s t, is_bytes s -> is_bytes t -> escape s = escape t -> s = t.
Proof. intros s t S T E. pose proof (unescape_escape s S) as A. pose proof (unescape_escape t T) as B. rewrite E in A. congruence. Qed.
(** Between quotes, as the library prints it, the string can be read back from
    any text which follows it. *)
Theorem C43_quoted_readable : forall s rest, is_bytes s -> read_literal (34 :: escape s ++ 34 :: rest) = Some (s, rest).
Proof.
  intros s rest B. unfold read_literal.
  assert (L : literal_end (escape s ++ 34 :: rest) = Some (escape s, rest)).
  { unfold escape. induction B as [|c s H _ IH]; [reflexivity|]. cbn [flat_map]. rewrite <- app_assoc, literal_char by exact H. now rewrite IH. }
  rewrite L, (unescape_escape s B). reflexivity.
Qed.
Print Assumptions C43_quoted_readable.
Print Assumptions C43_escaped_printable.
Print Assumptions C43_escape_readable.
Print Assumptions C43_escape_injective.
Example C43_example : escape [97; 34; 10; 0; 200] = bs "a\""\n\x00\xc8" /\ is_bytes [97; 34; 10; 0; 200].
Proof. split; [reflexivity|]. repeat constructor; lia. Qed.

(** ** C44 *)

(** Printing gives the usual decimal text. *)
Theorem C44_print_decimal : forall z, decimal_text (print_int z) z.
Proof. exact print_int_spec. Qed.
(** Parsing inverts printing, whole 64 bit ranges. *)
Theorem C44_parse_print_signed : forall z, - 2 ^ 63 <= z < 2 ^ 63 -> parse_i64 (print_int z) = Some z.
Proof. intros z R. apply parse_i64_spec. split; [|exact R]. apply decimal_denotes, print_int_spec. Qed.
Theorem C44_parse_print_unsigned : forall z, 0 <= z < 2 ^ 64 -> parse_u64 (print_int z) = Some z.
Proof.
  intros z R. apply parse_u64_spec. exists z. split; [apply decimal_denotes, print_int_spec|]. split; [lia|].
  symmetry. now apply Z.mod_small.
Qed.
(** A text is accepted as a signed integer exactly when it denotes one in
    range: no junk before or after it, no overflow. *)
Theorem C44_signed_exact : forall s z, parse_i64 s = Some z <-> denotes s z /\ - 2 ^ 63 <= z < 2 ^ 63.
Proof. exact parse_i64_spec. Qed.
Theorem C44_denotes_one : forall s a b, denotes s a -> denotes s b -> a = b.
Proof. exact denotes_inj. Qed.
(** As an unsigned integer negative numbers are accepted too and wrap around. *)
Theorem C44_unsigned_exact_partial : forall s u, parse_u64 s = Some u <->
  exists z, denotes s z /\ - 2 ^ 64 < z < 2 ^ 64 /\ u = z mod 2 ^ 64.
Proof. exact parse_u64_spec. Qed.
Theorem C44_unsigned_range_refuted : exists s z u, denotes s z /\ z < 0 /\ parse_u64 s = Some u.
Proof.
  exists (bs "-1"), (-1), (2 ^ 64 - 1). split; [|split; [lia|reflexivity]].
  apply (decimal_denotes _ _ (print_int_spec (-1))).
Qed.
(** Boolean text. *)
Theorem C44_bool_text : forall s b, parse_bool s = Some b <-> s = print_bool b.
Proof.
  intros s b. unfold parse_bool. split.
  - destruct (str_eqb s text_true) eqn:A; [apply str_eqb_eq in A; intro H; injection H as <-; exact A|].
    destruct (str_eqb s text_false) eqn:B; [apply str_eqb_eq in B; intro H; injection H as <-; exact B|discriminate].
  - intros ->. destruct b; reflexivity.
Qed.
Print Assumptions C44_print_decimal.
Print Assumptions C44_parse_print_signed.
Print Assumptions C44_parse_print_unsigned.
Print Assumptions C44_signed_exact.
Print Assumptions C44_denotes_one.
Print Assumptions C44_unsigned_exact_partial.
Print Assumptions C44_unsigned_range_refuted.
Print Assumptions C44_bool_text.
Example C44_example_texts :
  parse_i64 (bs " -0x7fffffffffffffff ") = Some (- (2 ^ 63 - 1)) /\ parse_i64 (bs "9223372036854775808") = None /\
  parse_i64 (bs "12 3") = None /\ parse_i64 (bs "017") = Some 15 /\ parse_i64 (bs "0x") = None /\ parse_i64 (bs "") = None
  /\ print_int (- 2 ^ 63) = bs "-9223372036854775808".
Proof. repeat split. Qed.

(** ** C58 *)
Theorem C58_difference_complete : forall ls rs fuel, (List.length ls <= fuel)%nat ->
  exists out, diff_lines fuel ls rs = Some out /\ left_side out = ls /\ right_side out = rs.
Proof. intros. now apply diff_lines_ok. Qed.
Theorem C58_equal_texts : forall ls, exists out,
  diff_lines (List.length ls) ls ls = Some out /\ Forall (fun p => fst p = Same) out.
Proof.
  intro ls. exists (map (pair Same) ls). split; [apply diff_lines_same|]. apply Forall_map. now apply Forall_forall.
Qed.
Theorem C58_difference_reported : forall ls rs fuel out, ls <> rs -> diff_lines fuel ls rs = Some out ->
  (List.length ls <= fuel)%nat -> Exists (fun p => fst p <> Same) out.
Proof.
  intros ls rs fuel out N E F. destruct (diff_lines_ok fuel ls rs F) as (out' & E' & L & R). rewrite E in E'. injection E' as <-.
  assert (X : forall o, Exists (fun p : tag * str => fst p <> Same) o \/ left_side o = right_side o).
  { induction o as [|[t l] o IH]; [now right|]. destruct t; [left; now left|left; now left|].
    destruct IH as [IH|IH]; [left; now right|]. right. unfold left_side, right_side in *. cbn. congruence. }
  destruct (X out) as [H|H]; [exact H|]. congruence.
Qed.
Print Assumptions C58_difference_complete.
Print Assumptions C58_equal_texts.
Print Assumptions C58_difference_reported.
Example C58_example : diff_lines 5 [bs "a"; bs "b"; bs "c"] [bs "a"; bs "x"; bs "c"; bs "d"]
  = Some [(Same, bs "a"); (Removed, bs "b"); (Added, bs "x"); (Same, bs "c"); (Added, bs "d")].
Proof. vm_compute. reflexivity. Qed.

(** ** C59 *)

(** Text whose lines all end in \n, or all in \r\n, is split into its lines. *)
Theorem C59_split_partial : forall e ls last fuel, (e = [10] \/ e = [13; 10]) -> Forall line_text ls -> line_text last ->
  (List.length ls < fuel)%nat ->
  split_lines fuel (flat_map (fun l => l ++ e) ls ++ last) = Some (ls ++ (if is_nil last then [] else [last])).
Proof. intros. now apply split_lines_in. Qed.
(** Any text with a carriage return which is not part of a line end makes it
    run forever. *)
Theorem C59_carriage_return_refuted : forall l r, line_text l -> (forall r', r <> 10 :: r') ->
  forall fuel, split_lines fuel (l ++ 13 :: r) = None.
Proof. intros. now apply split_lines_stuck. Qed.
Print Assumptions C59_split_partial.
Print Assumptions C59_carriage_return_refuted.
Example C59_example : split_lines 9 (bs "one" ++ [10] ++ [10] ++ bs "three") = Some [bs "one"; []; bs "three"] /\
  line_text (bs "one") /\ split_lines 9 (bs "one" ++ [13] ++ bs "two") = None.
Proof. repeat split; cbn; lia. Qed.
