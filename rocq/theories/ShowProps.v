(** C118: printed values. *)
From Coq Require Import String ZArith List Bool Lia.
From Verif Require Import Base BaseProofs TextModel TextSpec TextProofs TextProps ShowModel ShowSpec.
Import ListNotations.
Local Open Scope Z_scope.

Definition in_num (c : Z) : Prop := 48 <= c <= 57 \/ c = 45.
Lemma print_pos_num fuel : forall z, Forall in_num (print_pos fuel z).
Proof.
  induction fuel as [|f IH]; intro z; cbn [print_pos]; [constructor|]. apply Forall_app. split; [destruct (z <? 10); [constructor|apply IH]|]. constructor; [|constructor]. left. pose proof (Z.mod_pos_bound z 10). lia.
Qed.
Lemma print_int_num z : Forall in_num (print_int z).
Proof. unfold print_int. destruct (z <? 0); [constructor; [now right|]|]; apply print_pos_num. Qed.
Lemma print_int_inj a b : print_int a = print_int b -> a = b.
Proof. intro H. apply (C44_denotes_one (print_int a)); apply decimal_denotes; [apply print_int_spec|]. rewrite H. apply print_int_spec. Qed.
Lemma span {T} (P : T -> Prop) a : forall b x y r t, Forall P a -> Forall P b -> ~ P x -> ~ P y -> a ++ x :: r = b ++ y :: t -> a = b /\ x = y /\ r = t.
Proof.
  induction a as [|u a IH]; intros [|v b] x y r t A B X Y H; cbn in H.
  - injection H as -> ->. auto.
  - injection H as -> _. inversion B; subst. now destruct X.
  - injection H as <- _. inversion A; subst. now destruct Y.
  - injection H as -> H. inversion A; inversion B; subst. destruct (IH b x y r t) as (-> & -> & ->); auto.
Qed.
Lemma int_end a b x y r t : ~ in_num x -> ~ in_num y -> print_int a ++ x :: r = print_int b ++ y :: t -> a = b /\ x = y /\ r = t.
Proof. intros X Y H. destruct (span in_num _ _ _ _ _ _ (print_int_num a) (print_int_num b) X Y H) as (E & -> & ->). apply print_int_inj in E. auto. Qed.
Lemma quoted_end s t r u : is_bytes s -> is_bytes t -> (34 :: escape s ++ [34]) ++ r = (34 :: escape t ++ [34]) ++ u -> s = t /\ r = u.
Proof.
  intros S T H. cbn [app] in H. rewrite <- !app_assoc in H. cbn [app] in H. pose proof (C43_quoted_readable s r S) as A. rewrite H in A. rewrite (C43_quoted_readable t u T) in A. injection A as -> ->. auto.
Qed.
Lemma elem_end t a b x y r u : of_type t a -> of_type t b -> ~ in_num x -> ~ in_num y -> show_elem a ++ x :: r = show_elem b ++ y :: u -> a = b /\ x :: r = y :: u.
Proof.
  intros A B X Y H. destruct a as [z|b0|s], b as [z'|b1|s'], t; cbn in A, B; try contradiction; cbn [show_elem] in H;
    try (destruct (int_end _ _ _ _ _ _ X Y H) as (-> & -> & ->); auto; fail).
  - cbn in H. injection H as E -> ->. destruct b0, b1; try discriminate E; auto.
  - destruct (quoted_end _ _ _ _ A B H) as (-> & E). auto.
Qed.
Lemma not_num c : c = 44 \/ c = 93 \/ c = 125 \/ c = 10 \/ c = 32 -> ~ in_num c.
Proof. unfold in_num. lia. Qed.
Lemma elems_head limit i l r : exists c t, show_elems limit (S i) l ++ 93 :: r = c :: t /\ (c = 44 \/ c = 93).
Proof. destruct l as [|e l]; cbn; eauto. Qed.
Definition from (limit i : nat) (l : list elem) : list elem := match limit with O => l | _ => firstn (limit - i) l end.
Lemma elems_end t limit : forall l m i r u, Forall (of_type t) l -> Forall (of_type t) m -> length l = length m ->
  show_elems limit i l ++ 93 :: r = show_elems limit i m ++ 93 :: u -> from limit i l = from limit i m /\ r = u.
Proof.
  induction l as [|a l IH]; intros [|b m] i r u A B N H; cbn in N; try lia.
  - cbn in H. injection H as ->. auto.
  - injection N as N. cbn [show_elems] in H. rewrite <- !app_assoc in H. apply app_inv_head in H. destruct (reached limit i) eqn:R.
    + cbn in H. injection H as ->. split; [|reflexivity]. unfold reached in R. apply andb_prop in R as (R1 & R2). apply Nat.leb_le in R2. unfold from. destruct limit; [discriminate|]. replace (S limit - i)%nat with 0%nat by lia. reflexivity.
    + inversion A as [|? ? A1 A2]; inversion B as [|? ? B1 B2]; subst. rewrite <- !app_assoc in H.
      destruct (elems_head limit i l r) as (c & x & EX & CX). destruct (elems_head limit i m u) as (d & y & EY & DY). rewrite EX, EY in H.
      destruct (elem_end t a b c d x y A1 B1) as (-> & E); [apply not_num; tauto|apply not_num; tauto|exact H|]. rewrite <- EX, <- EY in E.
      destruct (IH m (S i) r u A2 B2 N E) as (F & ->). split; [|reflexivity]. unfold from in *. destruct limit as [|k]; [now rewrite F|].
      unfold reached in R. cbn [Nat.eqb negb andb] in R. apply Nat.leb_gt in R. replace (S k - i)%nat with (S (S k - S i)) by lia. cbn [firstn]. now rewrite F.
Qed.
Lemma arr_end t limit l m r u : Forall (of_type t) l -> Forall (of_type t) m -> show_arr limit l ++ r = show_arr limit m ++ u -> length l = length m /\ shown limit l = shown limit m /\ r = u.
Proof.
  intros A B H. unfold show_arr in H. cbn [app] in H. injection H as H. rewrite <- !app_assoc in H. cbn [app] in H.
  destruct (int_end _ _ _ _ _ _ (not_num 125 ltac:(tauto)) (not_num 125 ltac:(tauto)) H) as (N & _ & E). apply Nat2Z.inj in N. injection E as E. rewrite <- !app_assoc in E. cbn [app] in E.
  destruct (elems_end t limit l m 0 r u A B N E) as (F & ->). split; [exact N|]. split; [|reflexivity]. unfold from, shown in *. destruct limit; [exact F|]. exact F.
Qed.
(** The text of an array tells how many elements it has, and which those shown are: whatever text follows. *)
Theorem C118_array : forall t limit l m r u, Forall (of_type t) l -> Forall (of_type t) m ->
  (show_arr limit l ++ r = show_arr limit m ++ u <-> length l = length m /\ shown limit l = shown limit m /\ r = u).
Proof.
  intros t limit l m r u A B. split; [now apply (arr_end t)|]. intros (N & S & ->). f_equal. unfold show_arr. rewrite N. do 2 f_equal. f_equal. f_equal.
  assert (G : forall l m i, length l = length m -> from limit i l = from limit i m -> show_elems limit i l = show_elems limit i m).
  { clear. induction l as [|a l IH]; intros [|b m] i N F; cbn in N; try lia; [reflexivity|]. injection N as N. cbn [show_elems]. f_equal. destruct (reached limit i) eqn:R; [reflexivity|]. unfold from in F. destruct limit as [|k].
    - injection F as -> F. f_equal. apply IH; auto.
    - unfold reached in R. cbn [Nat.eqb negb andb] in R. apply Nat.leb_gt in R. replace (S k - i)%nat with (S (S k - S i)) in F by lia. cbn [firstn] in F. injection F as -> F. f_equal. apply IH; auto. }
  apply G; [exact N|]. unfold from, shown in *. destruct limit; exact S.
Qed.
(** It is printable, and with a limit no longer for longer arrays but for the count: at most [limit] elements are shown. *)
Theorem C118_array_printable : forall t limit l, Forall (of_type t) l -> Forall printable (show_arr limit l).
Proof.
  intros t limit l A.
  assert (NP : forall z, Forall printable (print_int z)) by (intro z; eapply Forall_impl; [|apply print_int_num]; unfold in_num, printable; intros; lia).
  unfold show_arr. constructor; [unfold printable; lia|]. apply Forall_app. split; [apply NP|]. cbn [app]. constructor; [unfold printable; lia|]. constructor; [unfold printable; lia|]. apply Forall_app. split; [|constructor; [unfold printable; lia|constructor]].
  generalize 0%nat. induction l as [|e l IH]; intro i; cbn [show_elems]; [constructor|]. inversion A as [|? ? A1 A2]; subst. apply Forall_app. split; [destruct (Nat.eqb i 0); repeat constructor; unfold printable; lia|].
  destruct (reached limit i); [repeat constructor; unfold printable; lia|]. apply Forall_app. split; [|apply IH, A2].
  destruct e as [z|b|s]; cbn [show_elem]; [apply NP|destruct b; repeat constructor; unfold printable; lia|]. assert (is_bytes s) by (destruct t; cbn in A1; tauto).
  constructor; [unfold printable; lia|]. apply Forall_app. split; [now apply C43_escaped_printable|]. constructor; [unfold printable; lia|constructor].
Qed.

Lemma delta_end t a b r u : of_type t a -> of_type t b -> delta_scalar a ++ 10 :: r = delta_scalar b ++ 10 :: u -> a = b /\ r = u.
Proof.
  intros A B H. destruct a as [z|b0|s], b as [z'|b1|s'], t; cbn in A, B; try contradiction; cbn [delta_scalar] in H;
    try (destruct (int_end _ _ _ _ _ _ (not_num 10 ltac:(tauto)) (not_num 10 ltac:(tauto)) H) as (-> & _ & ->); auto; fail).
  - destruct b0, b1; cbn in H; try discriminate H; injection H as ->; auto.
  - destruct (quoted_end _ _ _ _ A B H) as (-> & E). injection E as ->. auto.
Qed.
Lemma name_chars t : Forall (fun z => z <> 32 /\ z <> 91) (sty_name t).
Proof. destruct t; cbn; repeat (constructor; [lia|]); constructor. Qed.
Lemma name_end t t' x y : sty_name t ++ x = sty_name t' ++ y -> (hd 0 x = 32 \/ hd 0 x = 91) -> (hd 0 y = 32 \/ hd 0 y = 91) -> t = t' /\ x = y.
Proof.
  intros H X Y. destruct x as [|c x]; [cbn in X; lia|]. destruct y as [|d y]; [cbn in Y; lia|]. cbn [hd] in X, Y.
  destruct (span (fun z => z <> 32 /\ z <> 91) (sty_name t) (sty_name t') c d x y) as (E & -> & ->); try apply name_chars; auto; try lia.
  split; [|reflexivity]. destruct t, t'; try reflexivity; discriminate E.
Qed.
Lemma line_end limit x y r u : proper x -> proper y -> delta_line limit x ++ r = delta_line limit y ++ u -> alike limit x y /\ r = u.
Proof.
  intros (NX & CX) (NY & CY) H. unfold delta_line in H. rewrite <- !app_assoc in H. cbn [app] in H.
  destruct (span (fun c => c <> 32) _ _ _ _ _ _ NX NY (fun K => K eq_refl) (fun K => K eq_refl) H) as (N & _ & E). rewrite <- !app_assoc in E.
  apply name_end in E; [|destruct (l_content x); cbn; auto|destruct (l_content y); cbn; auto]. destruct E as (T & E). unfold alike. rewrite <- T in CY.
  destruct (l_content x) as [a|a], (l_content y) as [b|b]; rewrite <- ?app_assoc in E; cbn [app] in E; try discriminate E.
  - injection E as E. destruct (delta_end _ _ _ _ _ CX CY E) as (-> & ->). auto.
  - do 5 (apply (f_equal (@tl Z)) in E; cbn [tl] in E). destruct (arr_end _ limit _ _ _ _ CX CY E) as (L & S & R). injection R as ->. auto 6.
Qed.
(** What Value::format().delta() prints of marked scalars and arrays tells which fields are marked, in order, of what types, and their values, but for elements beyond the limit. *)
Theorem C118_delta : forall limit l m, Forall proper l -> Forall proper m -> delta_lines limit l = delta_lines limit m -> Forall2 (alike limit) l m.
Proof.
  intros limit. induction l as [|x l IH]; intros [|y m] A B H; [constructor|exfalso..|].
  - cbn in H. unfold delta_line in H. destruct (l_name y); discriminate H.
  - cbn in H. unfold delta_line in H. destruct (l_name x); discriminate H.
  - inversion A; inversion B; subst. cbn [delta_lines flat_map] in H. destruct (line_end limit x y _ _ ltac:(eassumption) ltac:(eassumption) H) as (L & E). constructor; [exact L|]. apply IH; auto.
Qed.
(** Integers are decimal, strings readable as string literals, as the tree format shows them too, except for types of 8 bits. *)
Theorem C118_tree_partial : forall t e, of_type t e -> t <> TI8 -> t <> TU8 ->
  match e with EInt z => decimal_text (tree_scalar t e) z | EBool b => parse_bool (tree_scalar t e) = Some b | EStr s => read_literal (tree_scalar t e) = Some (s, []) end.
Proof.
  intros t e T A B. destruct e as [z|b|s]; cbn [tree_scalar].
  - destruct t; try contradiction; try (now destruct A); try (now destruct B); apply print_int_spec.
  - now apply C44_bool_text.
  - apply C43_quoted_readable. destruct t; cbn in T; tauto.
Qed.
(** Those are shown as characters: 53 as 5, and 10 as the end of a line. *)
Theorem C118_tree_8bit_refuted : tree_scalar TI8 (EInt 53) = print_int 5 /\ tree_scalar TU8 (EInt 10) = [10] /\ ~ Forall printable (tree_scalar TU8 (EInt 10)) /\ of_type TI8 (EInt 53) /\ of_type TU8 (EInt 10).
Proof. repeat split. intro H. inversion H as [|? ? K _]. unfold printable in K. lia. Qed.

Example C118_example :
  let x := {| l_name := bs "value"; l_type := TI8; l_content := Array [EInt (-3); EInt 20; EInt 7] |} in
  let y := {| l_name := bs "alarm.message"; l_type := TStr; l_content := Scalar (EStr [97; 34; 10]) |} in
  proper x /\ proper y /\ delta_lines 2 [x; y] = bs "value int8_t[] = {3}[-3, 20, ...]" ++ [10] ++ bs "alarm.message string = ""a\""\n""" ++ [10] /\
  show_arr 0 [EBool true; EBool false] = bs "{2}[1, 0]" /\ show_arr 0 [EStr []; EStr (bs ", ")] = bs "{2}["""", "", ""]".
Proof. vm_compute. repeat split; repeat constructor; try discriminate. Qed.

Print Assumptions C118_array.
Print Assumptions C118_array_printable.
Print Assumptions C118_delta.
Print Assumptions C118_tree_partial.
Print Assumptions C118_tree_8bit_refuted.
