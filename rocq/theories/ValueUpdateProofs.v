(** Partial updates: to_wire_valid() and from_wire_valid(). *)
From Coq Require Import ZArith List Bool Lia ZifyBool ZifyNat Sorted.
From Verif Require Import Base BaseProofs WireModel WireSpec WireProofs SegModel SegSpec SegProofs
  BitMaskModel BitMaskSpec BitMaskProofs TypeModel TypeSpec TypeProofs TypeNameProofs
  ValueModel ValueSpec LayoutProofs ValueTypeProofs ValueSafeProofs ValueTopProofs ValueEncProofs ValueRoundProofs.
Import ListNotations.
Local Open Scope Z_scope.

(** ** the walk *)
Definition selb (cells : list cell) (mask : option bmask) (k : nat) : bool :=
  match nth_error cells k with
  | Some (true, _) => match mask with None => true | Some m => mbit m (Z.of_nat k) end
  | _ => false
  end.
Lemma selb_iff cells mask k : selb cells mask k = true <-> selected cells mask k.
Proof.
  unfold selb, selected. destruct (nth_error cells k) as [[[] s]|] eqn:E.
  - split; [intro H; split; [eauto|destruct mask; auto]|]. intros [_ H]. destruct mask; auto.
  - split; [discriminate|]. intros [[s' H] _]. discriminate.
  - split; [discriminate|]. intros [[s' H] _]. discriminate.
Qed.

Definition sz (nodes : list fdesc) (i : nat) : nat := f_size (first_node (skipn i nodes)).
Lemma sz_nth nodes i d : nth_error nodes i = Some d -> sz nodes i = f_size d.
Proof. intro E. unfold sz. destruct (skipn_nth i nodes d E) as [r ->]. reflexivity. Qed.
Lemma sz_range nodes i : lay nodes -> (i < length nodes)%nat -> (1 <= sz nodes i)%nat /\ (i + sz nodes i <= length nodes)%nat.
Proof.
  intros L H. destruct (nth_error nodes i) as [d|] eqn:E; [|apply nth_error_None in E; lia].
  rewrite (sz_nth nodes i d E). split; [apply f_size_pos|]. now apply lay_range.
Qed.
Lemma sz_nested nodes i j : lay nodes -> (i < length nodes)%nat -> (j < length nodes)%nat ->
  (i <= j < i + sz nodes i)%nat -> (j + sz nodes j <= i + sz nodes i)%nat.
Proof.
  intros L HI HJ. destruct (nth_error nodes i) as [d|] eqn:E; [|apply nth_error_None in E; lia].
  destruct (nth_error nodes j) as [d'|] eqn:E'; [|apply nth_error_None in E'; lia].
  rewrite (sz_nth _ _ _ E), (sz_nth _ _ _ E'). intro R. eapply lay_nested; eauto.
Qed.
Lemma sz_inside nodes i j : lay nodes -> (i < length nodes)%nat -> (is_inside nodes i j <-> (i < j < i + sz nodes i)%nat).
Proof.
  intros L H. destruct (nth_error nodes i) as [d|] eqn:E; [|apply nth_error_None in E; lia].
  rewrite (sz_nth _ _ _ E). now apply inside_iff.
Qed.

Inductive walked (nodes : list fdesc) (sel : nat -> bool) : nat -> list nat -> Prop :=
| w_done bit : (length nodes <= bit)%nat -> walked nodes sel bit []
| w_take bit l : (bit < length nodes)%nat -> sel bit = true -> walked nodes sel (bit + sz nodes bit) l -> walked nodes sel bit (bit :: l)
| w_skip bit l : (bit < length nodes)%nat -> sel bit = false -> walked nodes sel (S bit) l -> walked nodes sel bit l.

Lemma walked_range nodes sel bit l : lay nodes -> walked nodes sel bit l ->
  forall b, In b l -> (bit <= b < length nodes)%nat /\ sel b = true.
Proof.
  intro L. induction 1 as [bit H|bit l H S W IH|bit l H S W IH]; intros b I; [easy| |].
  - destruct I as [<-|I]; [auto with arith|]. specialize (IH b I). lia.
  - specialize (IH b I). lia.
Qed.
Lemma walked_cover nodes sel bit l : lay nodes -> walked nodes sel bit l ->
  forall k, sel k = true -> (bit <= k < length nodes)%nat -> exists b, In b l /\ (b <= k)%nat /\ (k + sz nodes k <= b + sz nodes b)%nat.
Proof.
  intro L. induction 1 as [bit H|bit l H S W IH|bit l H S W IH]; intros k SK R; [lia| |].
  - destruct (Nat.lt_ge_cases k (bit + sz nodes bit)) as [G|G].
    + exists bit. split; [now left|]. split; [lia|]. apply sz_nested; auto; lia.
    + destruct (IH k SK) as (b & I & B1 & B2); [lia|]. exists b. split; [now right|]. auto.
  - destruct (Nat.eq_dec k bit) as [->|N]; [congruence|]. destruct (IH k SK) as (b & I & B); [lia|]. exists b. auto.
Qed.
Lemma walked_outer nodes sel bit l : lay nodes -> walked nodes sel bit l ->
  (forall k, sel k = true -> (k < bit)%nat -> (k < length nodes)%nat -> (k + sz nodes k <= bit)%nat) ->
  forall b, In b l -> forall k, sel k = true -> (k < length nodes)%nat -> ~ (k < b < k + sz nodes k)%nat.
Proof.
  intro L. induction 1 as [bit H|bit l H S W IH|bit l H S W IH]; intros INV b I k SK KN; [easy| |].
  - destruct I as [<-|I].
    + intros R. specialize (INV k SK ltac:(lia) KN). lia.
    + apply IH; auto. intros k' SK' R' KN'. destruct (Nat.lt_ge_cases k' bit) as [G|G].
      * specialize (INV k' SK' G KN'). lia.
      * apply sz_nested; auto; lia.
  - apply IH; auto. intros k' SK' R' KN'. destruct (Nat.eq_dec k' bit) as [->|N]; [congruence|].
    specialize (INV k' SK' ltac:(lia) KN'). lia.
Qed.
Lemma walked_sorted nodes sel bit l : lay nodes -> walked nodes sel bit l -> StronglySorted lt l.
Proof.
  intro L. induction 1 as [bit H|bit l H S W IH|bit l H S W IH]; [constructor| |exact IH].
  constructor; [exact IH|]. apply Forall_forall. intros b I. destruct (walked_range _ _ _ _ L W b I).
  pose proof (sz_range nodes bit L H). lia.
Qed.

(** in terms of the specification *)
Section Outermost.
  Variables (nodes : list fdesc) (cells : list cell) (mask : option bmask) (l : list nat).
  Hypothesis LY : lay nodes.
  Hypothesis LC : length cells = length nodes.
  Hypothesis W : walked nodes (selb cells mask) 0 l.
  Lemma sel_lt k : selected cells mask k -> (k < length nodes)%nat.
  Proof. intros [[s E] _]. rewrite <- LC. apply nth_error_Some. congruence. Qed.
  Lemma walked_as_such j : In j l <-> sent_as_such nodes cells mask j.
  Proof.
    split.
    - intro I. destruct (walked_range _ _ _ _ LY W j I) as [R S]. split; [now apply selb_iff|].
      intros (k & SK & IN). pose proof (sel_lt k SK) as KN. apply sz_inside in IN; auto.
      apply selb_iff in SK. eapply (walked_outer _ _ _ _ LY W); eauto. intros. lia.
    - intros [S N]. pose proof (sel_lt j S) as JN. pose proof S as S'. apply selb_iff in S'.
      destruct (walked_cover _ _ _ _ LY W j S' ltac:(lia)) as (b & I & B1 & B2).
      destruct (Nat.eq_dec b j) as [->|NE]; [exact I|]. exfalso. apply N. exists b.
      destruct (walked_range _ _ _ _ LY W b I) as [R SB]. split; [now apply selb_iff|].
      apply sz_inside; auto; [lia|]. pose proof (sz_range nodes j LY JN). lia.
  Qed.
  Lemma walked_sent j : sent nodes cells mask j <-> exists b, In b l /\ (b <= j < b + sz nodes b)%nat.
  Proof.
    split.
    - intros (k & SK & R). pose proof (sel_lt k SK) as KN. pose proof SK as S'. apply selb_iff in S'.
      destruct (walked_cover _ _ _ _ LY W k S' ltac:(lia)) as (b & I & B1 & B2). exists b. split; [exact I|].
      pose proof (sz_range nodes k LY KN). destruct R as [->|R]; [lia|]. apply sz_inside in R; auto. lia.
    - intros (b & I & R). destruct (walked_range _ _ _ _ LY W b I) as [RB SB]. exists b. split; [now apply selb_iff|].
      destruct (Nat.eq_dec b j) as [->|N]; [now left|]. right. apply sz_inside; auto; lia.
  Qed.
End Outermost.

Lemma bm_set_words m i v m' : bm_set m i v = Some m' -> length (bm_words m') = length (bm_words m).
Proof. unfold bm_set. destruct (nth_error _ _); [|discriminate]. intro H. injection H as <-. cbn [bm_words]. apply list_set_length. Qed.
Lemma iter_from_pos m : bm_wf m -> bm_clean m -> forall fuel cur l, 0 <= cur -> BitMaskModel.iter_from fuel m cur (bm_size m) = Some l -> Forall (fun i => 0 <= i) l.
Proof.
  intros W C. induction fuel as [|fuel IH]; intros cur l P E; cbn [BitMaskModel.iter_from] in E; destruct (cur =? bm_size m); try discriminate.
  1, 2: injection E as <-; constructor.
  destruct (find_set_ok m (cur + 1) W C ltac:(lia)) as (r & R & F). rewrite R in E. destruct (BitMaskModel.iter_from fuel m r (bm_size m)) as [l'|] eqn:E'; [|discriminate].
  injection E as <-. constructor; [exact P|]. apply (IH r l'); [|exact E']. destruct W as (_ & W2 & _). destruct F as [(F & _)|(F & _)]; lia.
Qed.
Lemma only_set_pos m fuel l : bm_wf m -> bm_clean m -> only_set fuel m = Some l -> Forall (fun i => 0 <= i) l.
Proof.
  intros W C E. unfold only_set, only_set_range in E. destruct (find_set_ok m 0 W C ltac:(lia)) as (r & R & F). rewrite R in E.
  eapply iter_from_pos; eauto. destruct W as (_ & W2 & _). destruct F as [(F & _)|(F & _)]; lia.
Qed.
Definition bitin (l : list nat) (i : Z) : bool := existsb (fun b => Z.of_nat b =? i) l.
Lemma valid_walk_ok nodes cells mask : lay nodes -> length cells = length nodes -> mask_fits nodes mask ->
  forall fuel bit out, bm_wf out -> bm_size out = zlen nodes -> (bit <= length nodes)%nat -> (length nodes < fuel + bit)%nat ->
  exists out' l, valid_walk fuel bit nodes cells mask out = Some out' /\ walked nodes (selb cells mask) bit l /\
    bm_wf out' /\ bm_size out' = zlen nodes /\ length (bm_words out') = length (bm_words out) /\
    forall i, 0 <= i -> mbit out' i = mbit out i || bitin l i.
Proof.
  intros LY LC MF. pose proof (lay_length nodes LY) as LL. induction fuel as [|fuel IH]; intros bit out W S B F; [lia|].
  cbn [valid_walk]. rewrite LL. destruct (Nat.leb_spec (length nodes) bit) as [G|G].
  { exists out, []. split; [reflexivity|]. split; [now constructor|]. split; [exact W|]. split; [exact S|]. split; [reflexivity|]. intros i _. cbn. now rewrite orb_false_r. }
  destruct (nth_error nodes bit) as [d|] eqn:ED; [|apply nth_error_None in ED; lia].
  destruct (nth_error cells bit) as [[vl s]|] eqn:EC; [|apply nth_error_None in EC; unfold cell in *; lia].
  assert (SEL : (if vl then match mask with None => Some true | Some m => bm_get m (Z.of_nat bit) end else Some false) = Some (selb cells mask bit)).
  { unfold selb. rewrite EC. destruct vl; [|reflexivity]. destruct mask as [m|]; [|reflexivity]. destruct MF as [MW MS].
    apply bm_get_ok; [exact MW|]. rewrite MS. unfold zlen. lia. }
  rewrite SEL. destruct (selb cells mask bit) eqn:SB.
  - destruct (bm_set_ok out (Z.of_nat bit) true W ltac:(rewrite S; unfold zlen; lia)) as (out1 & E1 & W1 & S1 & M1). pose proof (bm_set_words _ _ _ _ E1) as L1. rewrite E1.
    pose proof (sz_range nodes bit LY G) as R. rewrite (sz_nth _ _ _ ED) in R.
    destruct (IH (bit + f_size d)%nat out1 W1 ltac:(congruence) ltac:(lia) ltac:(lia)) as (out' & l & E & WK & W' & S' & L' & M').
    exists out', (bit :: l). split; [exact E|]. split; [constructor; auto; now rewrite (sz_nth _ _ _ ED)|].
    split; [exact W'|]. split; [exact S'|]. split; [congruence|]. intros i Hi. rewrite M', M1 by exact Hi. cbn [bitin existsb]. fold (bitin l i).
    rewrite (Z.eqb_sym (Z.of_nat bit) i). destruct (i =? Z.of_nat bit); cbn [orb]; [now rewrite orb_true_r|reflexivity].
  - destruct (IH (Datatypes.S bit) out W S ltac:(lia) ltac:(lia)) as (out' & l & E & WK & R).
    exists out', l. split; [exact E|]. split; [now apply w_skip|exact R].
Qed.

Lemma sorted_unique (a b : list Z) : StronglySorted Z.lt a -> StronglySorted Z.lt b -> (forall x, In x a <-> In x b) -> a = b.
Proof.
  intro HA. revert b. induction HA as [|x a SA IH FA]; intros b HB E.
  - destruct b as [|y b]; [reflexivity|]. exfalso. destruct (proj2 (E y)); now left.
  - destruct HB as [|y b SB FB]; [exfalso; destruct (proj1 (E x)); now left|].
    rewrite Forall_forall in FA, FB.
    assert (x = y) as ->.
    { destruct (proj1 (E x) ltac:(now left)) as [->|I1]; [reflexivity|]. destruct (proj2 (E y) ltac:(now left)) as [->|I2]; [reflexivity|].
      specialize (FA _ I2). specialize (FB _ I1). lia. }
    f_equal. apply IH; [exact SB|]. intro z. split; intro I.
    + destruct (proj1 (E z) ltac:(now right)) as [->|K]; [specialize (FA _ I); lia|exact K].
    + destruct (proj2 (E z) ltac:(now right)) as [->|K]; [specialize (FB _ I); lia|exact K].
Qed.
Lemma sorted_of_nat l : StronglySorted lt l -> StronglySorted Z.lt (map Z.of_nat l).
Proof.
  induction 1 as [|x l S IH F]; cbn [map]; constructor; [exact IH|]. rewrite Forall_forall in *. intros y I.
  apply in_map_iff in I as (z & <- & I). specialize (F z I). lia.
Qed.
Lemma bitin_iff l i : bitin l i = true <-> In i (map Z.of_nat l).
Proof.
  unfold bitin. rewrite existsb_exists, in_map_iff. split; intros (x & A & B); exists x; split; auto; lia.
Qed.
Lemma fresh_no_bits n i : 0 <= n < 2 ^ 16 -> mbit (bm_resize n bm_empty) i = false.
Proof. intro H. apply mbit_fresh. lia. Qed.

(** what is sent for the field at node [b] *)
Definition csub (nodes : list fdesc) (b : nat) (cells : list cell) : list cell := firstn (sz nodes b) (skipn b cells).
Definition nsub (nodes : list fdesc) (b : nat) : list fdesc := firstn (sz nodes b) (skipn b nodes).
Definition enc_at (be : bool) (nodes : list fdesc) (cells : list cell) (b : nat) : list Z :=
  enc_cells be (csub nodes b cells) (nsub nodes b).

Lemma nsub_lay nodes b : lay nodes -> (b < length nodes)%nat -> lay (nsub nodes b).
Proof.
  intros L H. destruct (nth_error nodes b) as [d|] eqn:E; [|apply nth_error_None in E; lia]. exact (lay_sub nodes b d L E).
Qed.
Lemma nsub_length nodes b : lay nodes -> (b < length nodes)%nat -> length (nsub nodes b) = sz nodes b.
Proof. intros L H. unfold nsub. pose proof (sz_range nodes b L H). rewrite firstn_length, skipn_length. lia. Qed.

Lemma enc_bits_out host be nodes cells : lay nodes -> Forall is_typed nodes -> good_cells nodes cells ->
  forall l, (forall b, In b l -> (b < length nodes)%nat) -> forall pre,
  enc_bits host (map Z.of_nat l) nodes cells (outbuf pre be) = OK (outbuf (pre ++ concat (map (enc_at be nodes cells) l)) be).
Proof.
  intros LY T C. induction l as [|b l IH]; intros R pre.
  - cbn. now rewrite app_nil_r.
  - cbn [map enc_bits concat]. rewrite Nat2Z.id. pose proof (R b ltac:(now left)) as BN.
    pose proof (nsub_lay nodes b LY BN) as LS.
    pose proof (enc_field_out host be (csub nodes b cells) (nsub nodes b)) as K.
    specialize (K ltac:(apply Forall_firstn, Forall_skipn; exact T) ltac:(apply Forall2_firstn, Forall2_skipn; exact C) (lay_nonnil _ LS) LS).
    specialize (K ltac:(intros c v _ _ U; now apply usable_sends) (skipn (sz nodes b) (skipn b nodes)) (skipn (sz nodes b) (skipn b cells)) pre).
    unfold csub, nsub in K. rewrite !firstn_skipn in K. rewrite K. cbn [obind]. rewrite IH by (intros; apply R; now right).
    now rewrite <- app_assoc.
Qed.

(** the message *)
Lemma to_wire_valid_out be nodes cells mask m : describable m = true -> sized m -> nodes = flatten m -> m_code m = tc_Struct ->
  good_cells nodes cells -> zlen nodes < 2 ^ 16 -> mask_fits nodes mask ->
  exists valid l, walked nodes (selb cells mask) 0 l /\ bm_wf valid /\ bm_size valid = zlen nodes /\ 8 * zlen (bm_words valid) <= 0xffffffff /\
    (forall i, 0 <= i -> mbit valid i = bitin l i) /\
    forall host pre, to_wire_valid host (Val nodes cells) mask (outbuf pre be)
      = OK (outbuf (pre ++ enc_mask be valid ++ concat (map (enc_at be nodes cells) l)) be).
Proof.
  intros D S EN MC C LN MF. subst nodes. set (nodes := flatten m) in *. pose proof (sized_lay m D S) as LY. fold nodes in LY.
  pose proof (lay_length nodes LY) as LL. pose proof (good_cells_length _ _ C) as LC.
  assert (LN' : zlen nodes = Z.of_nat (length nodes)) by reflexivity.
  destruct (wf_fresh (Z.of_nat (length nodes)) ltac:(lia)) as [W0 S0].
  destruct (valid_walk_ok nodes cells mask LY ltac:(symmetry; exact LC) MF (Datatypes.S (length nodes)) 0 (bm_resize (Z.of_nat (length nodes)) bm_empty) W0 S0 ltac:(lia) ltac:(lia))
    as (valid & l & E & WK & WV & SV & LW & MV).
  assert (W8 : 8 * zlen (bm_words valid) <= 0xffffffff).
  { unfold zlen. rewrite LW, bm_resize_words by lia. cbn [bm_words bm_empty]. rewrite vec_resize_nil, repeat_length.
    unfold nwords_of. pose proof (Z.div_mod (Z.of_nat (length nodes) + 63) 64 ltac:(lia)). pose proof (Z.mod_pos_bound (Z.of_nat (length nodes) + 63) 64 ltac:(lia)). lia. }
  exists valid, l. split; [exact WK|]. split; [exact WV|]. split; [exact SV|]. split; [exact W8|].
  assert (MV' : forall i, 0 <= i -> mbit valid i = bitin l i).
  { intros i Hi. rewrite MV by exact Hi. rewrite mbit_fresh by lia. reflexivity. }
  split; [exact MV'|]. intros host pre. unfold to_wire_valid. cbn [v_nodes v_cells]. cbv zeta. rewrite LL.
  assert (FC : f_code (first_node nodes) = tc_Struct).
  { unfold nodes. rewrite <- MC. apply flatten_hd_code. }
  rewrite FC, Z.eqb_refl. cbn [negb orb].
  replace (match mask with Some m0 => negb (bm_size m0 =? Z.of_nat (length nodes)) | None => false end) with false.
  2:{ destruct mask as [mm|]; [|reflexivity]. destruct MF as [_ MS]. rewrite MS, LN', Z.eqb_refl. reflexivity. }
  rewrite E.
  pose proof (walked_range _ _ _ _ LY WK) as RG.
  assert (CL : bm_clean valid).
  { intros i Hi. destruct (Z.lt_ge_cases i 0) as [NEG|POS]; [rewrite SV in Hi; lia|]. rewrite MV' by exact POS.
    destruct (bitin l i) eqn:BI; [|reflexivity]. apply bitin_iff, in_map_iff in BI as (b & <- & I). specialize (RG b I). rewrite SV in Hi. lia. }
  destruct (only_set_ok valid WV CL) as (bits & OB & SB & IB).
  replace (Z.to_nat (bm_size valid)) with (length nodes) in OB by lia. rewrite OB.
  assert (bits = map Z.of_nat l) as ->.
  { apply sorted_unique; [exact SB|apply sorted_of_nat; eapply walked_sorted; eauto|]. intro x.
    assert (NN : In x (map Z.of_nat l) -> 0 <= x) by (intro I; apply in_map_iff in I as (y & <- & _); lia).
    destruct (Z.lt_ge_cases x 0) as [NEG|POS].
    - split; [|intro I; specialize (NN I); lia]. intro I. exfalso.
      pose proof (only_set_pos _ _ _ WV CL OB) as P. rewrite Forall_forall in P. specialize (P x I). lia.
    - rewrite IB, MV', bitin_iff by exact POS. reflexivity. }
  rewrite to_wire_mask_out; [|apply WV|exact W8].
  rewrite enc_bits_out; auto; [|apply flatten_typed; exact D|intros b I; apply RG; exact I]. now rewrite <- app_assoc.
Qed.

(** ** the receiver *)
Lemma skipn_plus {A} a b (l : list A) : skipn (a + b) l = skipn b (skipn a l).
Proof. revert l. induction a; intros [|x l]; cbn; auto. now rewrite skipn_nil. Qed.
Lemma nth_error_same {A} (l l' : list A) : (forall k, nth_error l k = nth_error l' k) -> l = l'.
Proof.
  revert l'. induction l as [|x l IH]; intros [|y l'] H; [reflexivity|specialize (H O); discriminate|specialize (H O); discriminate|].
  pose proof (H O) as H0. injection H0 as ->. f_equal. apply IH. intro k. apply (H (S k)).
Qed.
Lemma pairs_length {A B} (P : A -> B -> Prop) l l' : Forall2 P l l' -> length l' = length l.
Proof. induction 1; cbn; congruence. Qed.
Definition marked_head (l : list cell) : list cell := match l with (_, s) :: l' => (true, s) :: l' | [] => [] end.
Definition put (nodes : list fdesc) (src : list cell) (b : nat) (old : list cell) : list cell :=
  firstn b old ++ marked_head (filled_field (nsub nodes b) (csub nodes b old) (csub nodes b src) ++ skipn (sz nodes b) (skipn b old)).

Fixpoint apart (nodes : list fdesc) (start : nat) (l : list nat) : Prop :=
  match l with
  | [] => True
  | b :: l' => (start <= b)%nat /\ (b < length nodes)%nat /\ apart nodes (b + sz nodes b) l'
  end.
Lemma apart_weak nodes s s' l : (s' <= s)%nat -> apart nodes s l -> apart nodes s' l.
Proof. destruct l; cbn; intros; intuition lia. Qed.
Lemma walked_apart nodes sel bit l : walked nodes sel bit l -> apart nodes bit l.
Proof.
  induction 1 as [bit H|bit l H S W IH|bit l H S W IH]; cbn [apart]; [easy|auto|]. eapply apart_weak; [|exact IH]. lia.
Qed.
Lemma apart_ge nodes l : lay nodes -> forall s, apart nodes s l -> Forall (fun b => (s <= b < length nodes)%nat) l.
Proof.
  intro L. induction l as [|b l IH]; intros s A; [constructor|]. destruct A as (A1 & A2 & A3). pose proof (sz_range nodes b L A2).
  constructor; [lia|]. eapply Forall_impl; [|apply IH, A3]. cbn. intros. lia.
Qed.

Lemma filled_length nodes : forall old cells, length old = length nodes -> length cells = length nodes -> length (filled nodes old cells) = length nodes.
Proof.
  induction nodes as [|d nodes IH]; intros [|o old] [|c cells] H1 H2; try discriminate; [reflexivity|]. cbn [filled length] in *. rewrite IH; lia.
Qed.
Lemma filled_nth nodes : forall old cells j d vo so vs ss, nth_error nodes j = Some d -> nth_error old j = Some (vo, so) -> nth_error cells j = Some (vs, ss) ->
  nth_error (filled nodes old cells) j = Some (if f_code d =? tc_Struct then (vo, so) else (true, recv_sto received d ss)).
Proof.
  induction nodes as [|d0 nodes IH]; intros old cells [|j] d vo so vs ss; destruct old as [|o old], cells as [|c cells]; cbn [nth_error filled]; try discriminate.
  - intros [= ->] [= ->] [= ->]. reflexivity.
  - apply IH.
Qed.
Lemma filled_field_length nodes old cells : lay nodes -> length old = length nodes -> length cells = length nodes ->
  length (filled_field nodes old cells) = length nodes.
Proof.
  intros L H1 H2. unfold filled_field. destruct (Z.eqb_spec (f_code (first_node nodes)) tc_Struct) as [E|N]; [now apply filled_length|].
  inversion L as [x X1 X2 X3|x kids X1 X2 X3]; subst nodes; [|cbn [first_node hd] in N; contradiction].
  destruct old as [|[vo so] old], cells; cbn in *; try discriminate. reflexivity.
Qed.
Lemma marked_field_nth nodes old cells rest j d vo so vs ss : lay nodes -> length old = length nodes -> length cells = length nodes ->
  nth_error nodes j = Some d -> nth_error old j = Some (vo, so) -> nth_error cells j = Some (vs, ss) ->
  nth_error (marked_head (filled_field nodes old cells ++ rest)) j
    = Some (if f_code d =? tc_Struct then (vo || Nat.eqb j 0, so) else (true, recv_sto received d ss)).
Proof.
  intros L H1 H2 D O C.
  assert (K : nth_error (filled_field nodes old cells) j = Some (if f_code d =? tc_Struct then (vo, so) else (vo, recv_sto received d ss)) /\ j = 0%nat \/
              nth_error (filled_field nodes old cells) j = Some (if f_code d =? tc_Struct then (vo, so) else (true, recv_sto received d ss))).
  { unfold filled_field. destruct (Z.eqb_spec (f_code (first_node nodes)) tc_Struct) as [E|N]; [right; eapply filled_nth; eauto|left].
    inversion L as [x X1 X2 X3|x kids X1 X2 X3]; subst nodes; [|cbn [first_node hd] in N; contradiction].
    destruct j as [|j]; [|destruct j; discriminate]. cbn [nth_error first_node hd] in *. injection D as ->. destruct old as [|o old], cells as [|c cells]; try discriminate.
    injection O as ->. injection C as ->. replace (f_code d =? tc_Struct) with false by lia. cbn [nth_error snd]. auto. }
  destruct (filled_field nodes old cells) as [|[v0 s0] ff]; [destruct K as [[K ->]|K]; [discriminate|destruct j; discriminate]|].
  cbn [app marked_head]. destruct j as [|j].
  - cbn [nth_error Nat.eqb] in *. destruct K as [[K _]|K]; destruct (f_code d =? tc_Struct); injection K as -> ->; now rewrite ?orb_true_r.
  - cbn [nth_error Nat.eqb] in *. destruct K as [[K J]|K]; [discriminate|]. rewrite nth_error_app1 by (apply nth_error_Some; congruence).
    rewrite K, orb_false_r. reflexivity.
Qed.

Definition inb (nodes : list fdesc) (b j : nat) : bool := (b <=? j)%nat && (j <? b + sz nodes b)%nat.
Lemma put_length nodes src b old : lay nodes -> (b < length nodes)%nat -> length src = length nodes -> length old = length nodes ->
  length (put nodes src b old) = length nodes.
Proof.
  intros L B LS LO. pose proof (sz_range nodes b L B) as R. unfold put. rewrite app_length, firstn_length.
  assert (M : forall l, length (marked_head l) = length l) by (intros [|[? ?] ?]; reflexivity). rewrite M, app_length.
  unfold cell in *. rewrite filled_field_length; [|now apply nsub_lay|unfold csub; rewrite firstn_length, skipn_length, nsub_length by auto; unfold cell in *; lia..].
  rewrite nsub_length, !skipn_length by auto. lia.
Qed.
Lemma put_nth nodes src b old j d vo so vs ss : lay nodes -> (b < length nodes)%nat -> length src = length nodes -> length old = length nodes ->
  nth_error nodes j = Some d -> nth_error old j = Some (vo, so) -> nth_error src j = Some (vs, ss) ->
  nth_error (put nodes src b old) j
    = Some (if f_code d =? tc_Struct then (vo || Nat.eqb b j, so) else if inb nodes b j then (true, recv_sto received d ss) else (vo, so)).
Proof.
  intros L B LS LO D O C. pose proof (sz_range nodes b L B) as R. unfold put, inb. unfold cell in *.
  assert (JN : (j < length nodes)%nat) by (apply nth_error_Some; congruence).
  assert (LF : length (firstn b old) = b) by (rewrite firstn_length; unfold cell in *; lia).
  destruct (Nat.leb_spec b j) as [BJ|BJ].
  2:{ rewrite nth_error_app1 by lia. rewrite nth_error_firstn_lt by lia. rewrite O. replace (Nat.eqb b j) with false by lia. cbn [andb]. rewrite orb_false_r.
      now destruct (f_code d =? tc_Struct). }
  rewrite nth_error_app2 by lia. rewrite LF.
  pose proof (nsub_lay nodes b L B) as NL. pose proof (nsub_length nodes b L B) as NN.
  assert (LO' : length (csub nodes b old) = sz nodes b) by (unfold csub; rewrite firstn_length, skipn_length; unfold cell in *; lia).
  assert (LS' : length (csub nodes b src) = sz nodes b) by (unfold csub; rewrite firstn_length, skipn_length; unfold cell in *; lia).
  cbn [andb]. destruct (Nat.ltb_spec j (b + sz nodes b)) as [JB|JB].
  - assert (SUB : forall (A : Type) (l : list A), nth_error (firstn (sz nodes b) (skipn b l)) (j - b) = nth_error l j).
    { intros A l. rewrite nth_error_firstn_lt by lia. rewrite nth_error_skipn_add. f_equal. lia. }
    rewrite (marked_field_nth _ _ _ _ (j - b) d vo so vs ss); auto.
    2,3: unfold cell; rewrite NN; assumption.
    2-4: unfold nsub, csub; first [rewrite SUB | unfold cell; rewrite SUB | etransitivity; [apply SUB|]]; assumption.
    replace (Nat.eqb (j - b) 0) with (Nat.eqb b j) by (destruct (Nat.eqb_spec b j); destruct (Nat.eqb_spec (j - b) 0); lia). reflexivity.
  - assert (LFF : length (filled_field (nsub nodes b) (csub nodes b old) (csub nodes b src)) = sz nodes b) by (rewrite filled_field_length; congruence).
    assert (H : nth_error (marked_head (filled_field (nsub nodes b) (csub nodes b old) (csub nodes b src) ++ skipn (sz nodes b) (skipn b old))) (j - b)
              = nth_error (skipn (sz nodes b) (skipn b old)) (j - b - sz nodes b)).
    { set (ff := filled_field _ _ _) in *. destruct ff as [|[v0 s0] ff]; [cbn [length] in LFF; lia|]. cbn [app marked_head].
      change ((true, s0) :: ff ++ skipn (sz nodes b) (skipn b old)) with (((true, s0) :: ff) ++ skipn (sz nodes b) (skipn b old)).
      rewrite nth_error_app2 by (unfold cell in *; cbn [length] in *; lia). unfold cell in *; cbn [length] in *. f_equal. lia. }
    etransitivity; [exact H|]. rewrite !nth_error_skipn_add. replace (b + (sz nodes b + (j - b - sz nodes b)))%nat with j by lia. rewrite O.
    replace (Nat.eqb b j) with false by lia. rewrite orb_false_r. now destruct (f_code d =? tc_Struct).
Qed.
Definition puts (nodes : list fdesc) (src : list cell) (l : list nat) (old : list cell) : list cell :=
  fold_left (fun o b => put nodes src b o) l old.
Lemma puts_length nodes src l : lay nodes -> length src = length nodes -> Forall (fun b => (b < length nodes)%nat) l ->
  forall old, length old = length nodes -> length (puts nodes src l old) = length nodes.
Proof.
  intros L LS. induction 1 as [|b l B F IH]; intros old LO; [exact LO|]. cbn. apply IH. now apply put_length.
Qed.
Lemma puts_nth nodes src j d vs ss : lay nodes -> length src = length nodes -> nth_error nodes j = Some d -> nth_error src j = Some (vs, ss) ->
  forall l, Forall (fun b => (b < length nodes)%nat) l -> forall old vo so, length old = length nodes -> nth_error old j = Some (vo, so) ->
  nth_error (puts nodes src l old) j
    = Some (if f_code d =? tc_Struct then (vo || existsb (fun b => Nat.eqb b j) l, so)
            else if existsb (fun b => inb nodes b j) l then (true, recv_sto received d ss) else (vo, so)).
Proof.
  intros L LS D C. induction 1 as [|b l B F IH]; intros old vo so LO O.
  - unfold puts. cbn [fold_left existsb]. unfold cell in *. rewrite O, orb_false_r. now destruct (f_code d =? tc_Struct).
  - cbn [puts fold_left existsb]. fold (puts nodes src l (put nodes src b old)).
    pose proof (put_nth nodes src b old j d vo so vs ss L B LS LO D O C) as P.
    destruct (f_code d =? tc_Struct) eqn:ES.
    + erewrite IH; [|now apply put_length|exact P]. now rewrite orb_assoc.
    + destruct (inb nodes b j); cbn [orb]; (erewrite IH; [|now apply put_length|exact P]); [|reflexivity].
      now destruct (existsb _ l).
Qed.
Lemma puts_updated nodes src mask l old : lay nodes -> length src = length nodes -> length old = length nodes ->
  walked nodes (selb src mask) 0 l -> updated nodes src mask old (puts nodes src l old).
Proof.
  intros L LS LO W.
  assert (F : Forall (fun b => (b < length nodes)%nat) l).
  { apply Forall_forall. intros b I. apply (walked_range _ _ _ _ L W b I). }
  split; [unfold cell in *; rewrite puts_length; auto|]. intros j d vs ss vo so D C O.
  rewrite (puts_nth nodes src j d vs ss L LS D C l F old vo so LO O).
  assert (M : existsb (fun b => Nat.eqb b j) l = true <-> sent_as_such nodes src mask j).
  { rewrite <- (walked_as_such nodes src mask l L LS W). rewrite existsb_exists. split.
    - intros (b & I & E). apply Nat.eqb_eq in E. now subst.
    - intro I. exists j. split; [exact I|apply Nat.eqb_refl]. }
  assert (S : existsb (fun b => inb nodes b j) l = true <-> sent nodes src mask j).
  { rewrite (walked_sent nodes src mask l L LS W). rewrite existsb_exists. unfold inb. split; intros (b & I & E); exists b; split; auto; lia. }
  destruct (f_code d =? tc_Struct) eqn:ES.
  - eexists _, _. split; [reflexivity|]. split; [reflexivity|]. rewrite orb_true_iff, M. reflexivity.
  - destruct (existsb (fun b => inb nodes b j) l); (eexists _, _; split; [reflexivity|]); split; intro H; auto.
    + exfalso. apply H. now apply S.
    + apply S in H. discriminate.
Qed.

Lemma find_next nodes m l start : lay nodes -> bm_wf m -> bm_clean m -> bm_size m = zlen nodes -> apart nodes start l ->
  (forall i, Z.of_nat start <= i -> mbit m i = bitin l i) ->
  find_set m (Z.of_nat start) = Some (match l with [] => zlen nodes | b :: _ => Z.of_nat b end).
Proof.
  intros L W C S A B. destruct (find_set_ok m (Z.of_nat start) W C ltac:(lia)) as (r & -> & F). f_equal.
  pose proof (apart_ge nodes l L start A) as G. destruct l as [|b l].
  - destruct F as [(F1 & F2 & F3 & _)|(F1 & _)]; [|congruence]. rewrite B in F3 by lia. discriminate.
  - assert (BI : mbit m (Z.of_nat b) = true).
    { inversion G; subst. rewrite B by lia. apply bitin_iff. now left. }
    assert (LOW : forall i, Z.of_nat start <= i < Z.of_nat b -> mbit m i = false).
    { intros i Hi. rewrite B by lia. destruct (bitin (b :: l) i) eqn:E; [|reflexivity]. apply bitin_iff, in_map_iff in E as (x & <- & I).
      destruct A as (A1 & A2 & A3). destruct I as [->|I]; [lia|]. pose proof (apart_ge nodes l L _ A3) as G'. rewrite Forall_forall in G'. specialize (G' x I). lia. }
    inversion G as [|? ? GB _]; subst. destruct F as [(F1 & F2 & F3 & F4)|(F1 & F2)].
    + destruct (Z.lt_trichotomy r (Z.of_nat b)) as [X|[X|X]]; [|exact X|].
      * rewrite LOW in F3 by lia. discriminate.
      * rewrite F4 in BI by lia. discriminate.
    + rewrite F2 in BI by lia. discriminate.
Qed.

Lemma dec_bits_in host be m nodes src : Forall is_good nodes -> lay nodes -> oks nodes src -> bm_wf m -> bm_clean m -> bm_size m = zlen nodes ->
  forall l start, apart nodes start l -> (forall i, Z.of_nat start <= i -> mbit m i = bitin l i) ->
  forall n fuel old rest ts, length old = length nodes -> kinds_for (skipn start nodes) (skipn start old) -> (length l <= n)%nat ->
  (length (concat (map (enc_at be nodes src) l)) < fuel)%nat ->
  run_flat (dec_bits n (dec_node fuel host) m (match l with [] => zlen nodes | b :: _ => Z.of_nat b end) nodes old ts)
           (inbuf (concat (map (enc_at be nodes src) l) ++ rest) be)
    = (DOK (puts nodes src l old, ts), inbuf rest be).
Proof.
  intros G LY OK0 W C S. pose proof (lay_length nodes LY) as LL.
  assert (LS : length src = length nodes) by exact (pairs_length _ _ _ OK0).
  induction l as [|b l IH]; intros start A B n fuel old rest ts LO K LN LF.
  - cbn [map concat app puts fold_left]. destruct n; cbn [dec_bits]; rewrite LL; replace (Z.of_nat (length nodes) <=? zlen nodes) with true by (unfold zlen; lia); reflexivity.
  - destruct A as (A1 & A2 & A3). destruct n as [|n]; [cbn [length] in LN; lia|]. cbn [dec_bits]. rewrite LL.
    replace (Z.of_nat (length nodes) <=? Z.of_nat b) with false by lia. cbv zeta. rewrite Nat2Z.id. cbn [map concat] in *. rewrite app_length in LF. rewrite <- app_assoc.
    pose proof (sz_range nodes b LY A2) as R.
    pose proof (dec_field_in host be fuel (nsub nodes b) (csub nodes b src) (csub nodes b old)) as D.
    specialize (D ltac:(apply Forall_firstn, Forall_skipn; exact G) (nsub_lay nodes b LY A2) ltac:(apply Forall2_firstn, Forall2_skipn; exact OK0)).
    assert (KB : kinds_for (skipn b nodes) (skipn b old)).
    { replace b with (start + (b - start))%nat by lia. rewrite !skipn_plus. apply Forall2_skipn. exact K. }
    specialize (D ltac:(apply Forall2_firstn; exact KB) ltac:(intros c v m' _ _ G' V' C'; now apply (good_gets host be v m')) (concat (map (enc_at be nodes src) l) ++ rest)
       (skipn (sz nodes b) (skipn b nodes)) (skipn (sz nodes b) (skipn b old)) ts ltac:(unfold enc_at in LF; lia)).
    unfold nsub at 1 in D. unfold csub at 1 in D. rewrite !firstn_skipn in D.
    erewrite run_dbind by exact D. cbn [fst snd]. fold (sz nodes b).
    rewrite <- Nat2Z.inj_add.
    assert (B' : forall i, Z.of_nat (b + sz nodes b) <= i -> mbit m i = bitin l i).
    { intros i Hi. rewrite B by lia. cbn [bitin existsb]. replace (Z.of_nat b =? i) with false by lia. reflexivity. }
    rewrite (find_next nodes m l (b + sz nodes b) LY W C S A3 B').
    change (match filled_field (nsub nodes b) (csub nodes b old) (csub nodes b src) ++ skipn (sz nodes b) (skipn b old) with
       | (_, s) :: l0 => (true, s) :: l0 | [] => [] end) with (marked_head (filled_field (nsub nodes b) (csub nodes b old) (csub nodes b src) ++ skipn (sz nodes b) (skipn b old))).
    fold (put nodes src b old). cbn [puts fold_left]. fold (puts nodes src l (put nodes src b old)).
    apply (IH (b + sz nodes b)%nat); auto.
    + now apply put_length.
    + replace (skipn (b + sz nodes b) (put nodes src b old)) with (skipn (sz nodes b) (skipn b old)).
      * rewrite skipn_plus. apply Forall2_skipn. exact KB.
      * apply nth_error_same. intro k.
        destruct (nth_error nodes (b + (sz nodes b + k))) as [d|] eqn:ED.
        -- destruct (nth_error old (b + (sz nodes b + k))) as [[vo so]|] eqn:EO; [|apply nth_error_None in EO; assert (b + (sz nodes b + k) < length nodes)%nat by (apply nth_error_Some; congruence); unfold cell in *; lia].
           destruct (nth_error src (b + (sz nodes b + k))) as [[vs ss]|] eqn:EC; [|apply nth_error_None in EC; assert (b + (sz nodes b + k) < length nodes)%nat by (apply nth_error_Some; congruence); unfold cell in *; lia].
           rewrite !nth_error_skipn_add. rewrite EO. replace (b + sz nodes b + k)%nat with (b + (sz nodes b + k))%nat by lia.
           rewrite (put_nth nodes src b old _ d vo so vs ss) by auto. unfold inb.
           replace (Nat.eqb b (b + (sz nodes b + k))) with false by lia.
           replace (b + (sz nodes b + k) <? b + sz nodes b)%nat with false by lia. rewrite andb_false_r, orb_false_r. now destruct (f_code d =? tc_Struct).
        -- apply nth_error_None in ED. rewrite !nth_error_skipn_add. rewrite (proj2 (nth_error_None old _)) by (unfold cell in *; lia). symmetry. apply nth_error_None.
           pose proof (put_length nodes src b old LY A2 LS LO). unfold cell in *. lia.
    + cbn [length] in LN. lia.
    + lia.
Qed.

Lemma resized_bits bits m i : 0 <= bits < 2 ^ 62 -> (forall k, bits <= k -> mbit m k = false) -> 0 <= i -> mbit (bm_resize bits m) i = mbit m i.
Proof.
  intros H C Hi. rewrite bm_resize_words by lia. unfold mbit in *. cbn [bm_words]. unfold vec_resize.
  pose proof (Z.div_mod i 64 ltac:(lia)) as DM. pose proof (Z.mod_pos_bound i 64 ltac:(lia)) as MB. pose proof (Z.div_pos i 64 Hi ltac:(lia)) as DP.
  destruct (Z.lt_ge_cases (i / 64) (nwords_of bits)) as [LT|GE].
  - destruct (Nat.lt_ge_cases (Z.to_nat (i / 64)) (length (bm_words m))) as [L|G].
    + rewrite app_nth1 by (rewrite firstn_length; lia). now rewrite nth_firstn_lt by lia.
    + rewrite (nth_overflow (bm_words m)) by exact G. rewrite app_nth2 by (rewrite firstn_length; lia). now rewrite nth_repeat0.
  - assert (BI : bits <= i).
    { unfold nwords_of in GE. pose proof (Z.div_mod (bits + 63) 64 ltac:(lia)). pose proof (Z.mod_pos_bound (bits + 63) 64 ltac:(lia)). lia. }
    rewrite (C i BI). rewrite nth_overflow; [apply Z.bits_0|]. rewrite app_length, firstn_length, repeat_length. lia.
Qed.
Lemma walked_length nodes sel bit l : lay nodes -> walked nodes sel bit l -> (length l + bit <= length nodes + (bit - length nodes))%nat.
Proof.
  intro L. induction 1 as [bit H|bit l H S W IH|bit l H S W IH]; cbn [length]; [lia| |lia].
  pose proof (sz_range nodes bit L H). lia.
Qed.

(** ** the whole update *)
Lemma valid_round be v m old mask : value_of m v -> storage_for m old -> m_code m = tc_Struct -> zlen (flatten m) < 2 ^ 16 -> mask_fits (flatten m) mask ->
  exists e new,
    (forall host pre, to_wire_valid host v mask (outbuf pre be) = OK (outbuf (pre ++ e) be)) /\
    (forall host fuel rest ts, (length e < fuel)%nat ->
      run_flat (from_wire_valid fuel host old ts) (inbuf (e ++ rest) be) = (DOK (Val (flatten m) new, ts), inbuf rest be)) /\
    updated (flatten m) (v_cells v) mask (v_cells old) new.
Proof.
  intros V ST MC LN MF. pose proof (value_of_usable m v V) as U. destruct V as (G & V & CK). destruct ST as (S1 & S2). destruct v as [nodes cells]. cbn [v_nodes v_cells] in *. subst nodes.
  inversion CK as [n c OK0]; subst. pose proof (good_describable m G) as D. pose proof (good_sized m G) as S. pose proof (sized_lay m D S) as LY.
  set (nodes := flatten m) in *.
  assert (GC : good_cells nodes cells) by (inversion U; subst; assumption).
  destruct (to_wire_valid_out be nodes cells mask m D S eq_refl MC GC LN MF) as (valid & l & WK & WV & SV & W8 & MV & E).
  assert (LS : length cells = length nodes) by exact (pairs_length _ _ _ OK0).
  assert (LO : length (v_cells old) = length nodes) by exact (pairs_length _ _ _ S2).
  exists (enc_mask be valid ++ concat (map (enc_at be nodes cells) l)), (puts nodes cells l (v_cells old)).
  split; [|split].
  - exact E.
  - intros host fuel rest ts LF. rewrite app_length in LF. unfold from_wire_valid.
    destruct (from_wire_mask_in host valid (concat (map (enc_at be nodes cells) l) ++ rest) be (proj1 WV) W8) as (m' & nb & EM & M1 & M2 & _).
    rewrite <- app_assoc. erewrite run_pbind by (rewrite p_mask_ok; exact EM). cbn [run_flat]. cbn [rgood rerr inbuf negb]. cbv zeta.
    assert (LZ : Z.of_nat (length (v_cells old)) = zlen nodes) by (unfold zlen; unfold cell in *; lia). rewrite LZ.
    assert (BN : 0 <= zlen nodes < 2 ^ 16) by (unfold zlen in *; lia).
    destruct (resized_wf (zlen nodes) m' M2 BN) as [W2 SZ2].
    assert (HIGH : forall k, zlen nodes <= k -> mbit m' k = false).
    { intros k Hk. rewrite M1, MV by lia. destruct (bitin l k) eqn:BI; [|reflexivity]. apply bitin_iff, in_map_iff in BI as (x & <- & I).
      apply (walked_range _ _ _ _ LY WK) in I. unfold zlen in Hk. lia. }
    assert (BITS : forall i, 0 <= i -> mbit (bm_resize (zlen nodes) m') i = bitin l i).
    { intros i Hi. rewrite resized_bits, M1, MV by (auto; lia). reflexivity. }
    assert (CL2 : bm_clean (bm_resize (zlen nodes) m')).
    { intros i Hi. rewrite SZ2 in Hi. rewrite resized_bits by (auto; lia). now apply HIGH. }
    pose proof (walked_apart _ _ _ _ WK) as AP.
    pose proof (find_next nodes _ l 0 LY W2 CL2 SZ2 AP ltac:(intros i Hi; apply BITS; lia)) as FN. change (Z.of_nat 0) with 0 in FN. rewrite FN.
    erewrite run_dbind.
    2:{ rewrite S1. apply (dec_bits_in host be _ nodes cells (flatten_good m G) LY OK0 W2 CL2 SZ2 l 0 AP); auto.
        - pose proof (walked_length _ _ _ _ LY WK). unfold cell in *. lia.
        - lia. }
    cbn [fst snd run_flat pok]. now rewrite S1.
  - now apply puts_updated.
Qed.
