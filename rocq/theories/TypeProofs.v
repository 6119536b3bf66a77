From Coq Require Import ZArith List Bool Lia ZifyBool ZifyNat.
From Verif Require Import Base BaseProofs WireModel WireSpec WireProofs SegModel SegSpec SegProofs BitMaskModel BitMaskSpec BitMaskProofs TypeModel TypeSpec.
Import ListNotations.
Local Open Scope Z_scope.

(** ** induction over member trees *)
Fixpoint member_ind' (P : member -> Prop)
  (H : forall code name id children, Forall P children -> P (Mem code name id children)) (m : member) : P m :=
  match m with
  | Mem code name id children =>
      H code name id children
        ((fix go (l : list member) : Forall P l :=
            match l with
            | [] => Forall_nil P
            | c :: l' => Forall_cons c (member_ind' P H c) (go l')
            end) children)
  end.

Lemma skipn_skipn_add {A} a b (l : list A) : skipn b (skipn a l) = skipn (a + b) l.
Proof. rewrite skipn_skipn. f_equal. lia. Qed.

(** ** closed form of flatten *)
Fixpoint attach_all (cs : list member) (fld : fdesc) (kids : list fdesc) : fdesc * list fdesc :=
  match cs with
  | [] => (fld, kids)
  | c :: cs' => let '(fld', kids') := attach_child fld kids (m_name c) (flatten c) in attach_all cs' fld' kids'
  end.

Definition flatten_plain (code : Z) (id : str) (cs : list member) : list fdesc :=
  let '(fld, kids) := attach_all cs (FD id [] [] 0 [] code) [] in finish_node fld kids.

Lemma flatten_eq code name id cs :
  flatten (Mem code name id cs) =
  if is_array_of_compound code then [FD [] [] [] 0 (flatten_plain (tc_scalarOf code) id cs) code]
  else flatten_plain code id cs.
Proof. reflexivity. Qed.

Fixpoint kids_from (st : bool) (off : nat) (cs : list member) : list fdesc :=
  match cs with
  | [] => []
  | c :: cs' => (if st then set_parent off (flatten c) else flatten c)
                ++ kids_from st (off + length (flatten c)) cs'
  end.
Fixpoint iter_from (off : nat) (cs : list member) : list (str * nat) :=
  match cs with
  | [] => []
  | c :: cs' => (m_name c, off) :: iter_from (off + length (flatten c)) cs'
  end.
Definition look_child (st : bool) (off : nat) (name : str) (cfld : fdesc) (lk : list (str * nat)) : list (str * nat) :=
  if st && (f_code cfld =? tc_Struct)
  then fold_left (fun m p => map_set (name ++ dot :: fst p) (off + snd p)%nat m) (f_lookup cfld)
                 (map_set name off lk)
  else map_set name off lk.
Fixpoint look_from (st : bool) (off : nat) (cs : list member) (lk : list (str * nat)) : list (str * nat) :=
  match cs with
  | [] => lk
  | c :: cs' =>
      look_from st (off + length (flatten c)) cs'
        (look_child st off (m_name c) (hd (fd_new tc_Null) (flatten c)) lk)
  end.

Lemma set_parent_length p l : length (set_parent p l) = length l.
Proof. now destruct l. Qed.

Definition base_of (code : Z) : nat := if code =? tc_Struct then 1 else 0.

Lemma attach_all_eq cs : forall id lk it p ms code kids,
  attach_all cs (FD id lk it p ms code) kids =
  let st := code =? tc_Struct in
  let off := (base_of code + length kids)%nat in
  (FD id (look_from st off cs lk) (it ++ iter_from off cs) p ms code, kids ++ kids_from st off cs).
Proof.
  induction cs as [|c cs IH]; intros; cbn [attach_all look_from iter_from kids_from].
  - now rewrite !app_nil_r.
  - unfold attach_child. cbn [f_code f_id f_lookup f_iter f_parent f_members].
    cbv zeta. rewrite IH. cbv zeta. unfold base_of.
    rewrite app_length, <- !app_assoc.
    replace (length (if code =? tc_Struct then set_parent _ (flatten c) else flatten c)) with (length (flatten c))
      by (destruct (code =? tc_Struct); [now rewrite set_parent_length|reflexivity]).
    rewrite <- Nat.add_assoc. cbn [app].
    f_equal. f_equal.
    unfold look_child. destruct (code =? tc_Struct) eqn:E; cbn [andb]; [|reflexivity].
    apply Z.eqb_eq in E. subst code. rewrite Z.eqb_sym. reflexivity.
Qed.

Lemma flatten_plain_eq code id cs :
  flatten_plain code id cs =
  let st := code =? tc_Struct in
  let fld ms := FD id (look_from st (base_of code) cs []) (iter_from (base_of code) cs) 0 ms code in
  if st then fld [] :: kids_from true 1 cs else [fld (kids_from false 0 cs)].
Proof.
  unfold flatten_plain. rewrite attach_all_eq. cbv zeta. cbn [length app]. rewrite Nat.add_0_r.
  unfold finish_node, base_of. cbn [f_code]. destruct (code =? tc_Struct) eqn:E; reflexivity.
Qed.

Lemma flatten_cons m : exists d l, flatten m = d :: l /\ f_code d = m_code m /\ f_parent d = 0%nat.
Proof.
  destruct m as [code name id cs]. rewrite flatten_eq. cbn [m_code].
  destruct (is_array_of_compound code); [repeat eexists|].
  rewrite flatten_plain_eq. cbv zeta. destruct (code =? tc_Struct); repeat eexists.
Qed.
Lemma flatten_length m : (1 <= length (flatten m))%nat.
Proof. destruct (flatten_cons m) as (d & l & -> & _). cbn [length]. lia. Qed.
Lemma flatten_nonnil m : is_nil (flatten m) = false.
Proof. now destruct (flatten_cons m) as (d & l & -> & _). Qed.
Lemma flatten_hd_code m : f_code (hd (fd_new tc_Null) (flatten m)) = m_code m.
Proof. now destruct (flatten_cons m) as (d & l & -> & ? & _). Qed.
Lemma set_parent_flatten m : set_parent 0 (flatten m) = flatten m.
Proof. destruct (flatten_cons m) as (d & l & -> & _ & P). cbn. rewrite <- P. now destruct d. Qed.
Lemma flatten_name code n1 n2 id cs : flatten (Mem code n1 id cs) = flatten (Mem code n2 id cs).
Proof. reflexivity. Qed.
Lemma flatten_rename n m : flatten (rename n m) = flatten m.
Proof. now destruct m. Qed.

(** ** wire encoding of a type *)
Fixpoint enc_type (be : bool) (m : member) : list Z :=
  match m with
  | Mem code name id cs =>
      let body := enc_str be id ++ enc_size be (zlen cs)
                  ++ concat (map (fun c => enc_str be (m_name c) ++ enc_type be c) cs) in
      if is_array_of_compound code then [code; tc_scalarOf code] ++ body
      else if (code =? tc_Struct) || (code =? tc_Union) then [code] ++ body
      else [code]
  end.

Lemma leaf_byte c : leaf_code c = true -> 0 <= c < 256.
Proof. unfold leaf_code. lia. Qed.
Lemma leaf_not_special c : leaf_code c = true ->
  c <> tc_Null /\ c <> 0xfd /\ c <> 0xfe /\ Z.land c 0x10 = 0 /\ has_members c = false.
Proof.
  intro H. pose proof (leaf_byte c H) as B.
  assert (K : forallb (fun n => let c := Z.of_nat n in
     negb (leaf_code c) || (negb (c =? tc_Null) && negb (c =? 0xfd) && negb (c =? 0xfe) && (Z.land c 0x10 =? 0)
     && negb (has_members c))) (seq 0 256) = true) by (vm_compute; reflexivity).
  rewrite forallb_forall in K. specialize (K (Z.to_nat c)). rewrite in_seq in K.
  cbv zeta in K. rewrite Z2Nat.id in K by lia. specialize (K ltac:(lia)). rewrite H in K. cbn [negb orb] in K.
  lia.
Qed.

Lemma enc_u_1 be v : 0 <= v < 256 -> enc_u be 1 v = [v].
Proof.
  intro H. unfold enc_u. rewrite u_cast_id by (cbn; lia).
  cbn [le_bytes]. rewrite Z.mod_small by lia. now destruct be.
Qed.
Lemma to_wire_code h code pre be : 0 <= code < 256 ->
  to_wire_u h 1 code (outbuf pre be) = outbuf (pre ++ [code]) be.
Proof.
  intro H. rewrite to_wire_u_out. now rewrite enc_u_1.
Qed.
Lemma from_wire_code h i code rest be : 0 <= code < 256 ->
  from_wire_u h 1 i (inbuf (code :: rest) be) = (code, inbuf rest be).
Proof.
  intro H. change (code :: rest) with ([code] ++ rest). rewrite <- (enc_u_1 be code) by lia.
  apply from_wire_u_in. cbn. lia.
Qed.

Lemma has_members_byte c : has_members c = true -> 0 <= c < 256.
Proof. unfold has_members, is_array_of_compound, tc_Struct, tc_Union, tc_StructA, tc_UnionA. lia. Qed.

(** ** the encoder *)
Definition enc_loop (rec : list fdesc -> wbuf -> option wbuf) (host : bool) (base : list fdesc) :=
  fix go (l : list (str * nat)) (w : wbuf) : option wbuf :=
  match l with
  | [] => Some w
  | (n, i) :: l' =>
      match rec (skipn i base) (to_wire_str host n w) with
      | Some w' => go l' w'
      | None => None
      end
  end.
Lemma to_wire_desc_S fuel h d l w :
  to_wire_desc (S fuel) h (d :: l) w =
  let w1 := to_wire_u h 1 (f_code d) w in
  if is_array_of_compound (f_code d) then to_wire_desc fuel h (f_members d) w1
  else if (f_code d =? tc_Struct) || (f_code d =? tc_Union)
  then enc_loop (to_wire_desc fuel h) h (if f_code d =? tc_Struct then d :: l else f_members d) (f_iter d)
         (to_wire_size h (zlen (f_iter d)) (to_wire_str h (f_id d) w1))
  else Some w1.
Proof. reflexivity. Qed.

Lemma iter_from_length off cs : length (iter_from off cs) = length cs.
Proof. revert off. induction cs as [|c cs IH]; intro; cbn [iter_from length]; auto. Qed.
Lemma forallb_Forall {A} (f : A -> bool) l : forallb f l = true <-> Forall (fun x => f x = true) l.
Proof. rewrite forallb_forall, Forall_forall. reflexivity. Qed.
Lemma levels_children code name id cs n : (levels (Mem code name id cs) <= n)%nat ->
  Forall (fun c => (levels c <= n - (if is_array_of_compound code then 2 else 1))%nat) cs.
Proof.
  cbn [levels]. set (k := if is_array_of_compound code then 2%nat else 1%nat).
  intro H. assert (fold_right (fun c acc => Nat.max (levels c) acc) 0%nat cs <= n - k)%nat by lia. clear H.
  induction cs as [|c cs IH]; constructor; cbn [fold_right] in H0; [lia|]. apply IH. lia.
Qed.
Lemma levels_ge code name id cs n : (levels (Mem code name id cs) <= n)%nat ->
  exists n', n = S n' /\ (is_array_of_compound code = true -> exists n'', n' = S n'').
Proof.
  cbn [levels]. destruct (is_array_of_compound code); intro H.
  - destruct n as [|[|n]]; try lia. eauto.
  - destruct n as [|n]; [lia|]. exists n. split; [reflexivity|easy].
Qed.

Definition encodes (h be : bool) (m : member) : Prop :=
  forall fuel p rest pre, (levels m <= fuel)%nat ->
    to_wire_desc fuel h (set_parent p (flatten m) ++ rest) (outbuf pre be)
    = Some (outbuf (pre ++ enc_type be m) be).

Lemma enc_loop_out h be fuel cs :
  Forall (fun c => wire_str (m_name c) = true /\ encodes h be c /\ (levels c <= fuel)%nat) cs ->
  forall st off base tail pre, skipn off base = kids_from st off cs ++ tail ->
  enc_loop (to_wire_desc fuel h) h base (iter_from off cs) (outbuf pre be)
  = Some (outbuf (pre ++ concat (map (fun c => enc_str be (m_name c) ++ enc_type be c) cs)) be).
Proof.
  induction 1 as [|c cs (N & E & L) _ IH]; intros st off base tail pre K.
  - cbn. now rewrite app_nil_r.
  - cbn [iter_from enc_loop map concat]. cbn [kids_from] in K.
    rewrite to_wire_str_out by (unfold wire_str in N; lia).
    assert (K1 : exists p, skipn off base = set_parent p (flatten c) ++ kids_from st (off + length (flatten c)) cs ++ tail).
    { rewrite K, <- app_assoc. destruct st; [eauto|]. exists 0%nat. now rewrite set_parent_flatten. }
    destruct K1 as [p K1]. rewrite K1, E by assumption.
    fold (enc_loop (to_wire_desc fuel h) h base).
    rewrite (IH st (off + length (flatten c))%nat base tail).
    + rewrite <- !app_assoc. reflexivity.
    + rewrite <- skipn_skipn_add, K1.
      rewrite <- (set_parent_length p). apply skipn_len_app.
Qed.

Lemma enc_plain_out h be fuel code id cs p rest pre :
  (code = tc_Struct \/ code = tc_Union) ->
  wire_str id = true -> zlen cs <= 0xffffffff ->
  Forall (fun c => wire_str (m_name c) = true /\ encodes h be c /\ (levels c <= fuel)%nat) cs ->
  to_wire_desc (S fuel) h (set_parent p (flatten_plain code id cs) ++ rest) (outbuf pre be)
  = Some (outbuf (pre ++ [code] ++ enc_str be id ++ enc_size be (zlen cs)
            ++ concat (map (fun c => enc_str be (m_name c) ++ enc_type be c) cs)) be).
Proof.
  intros C W N F. rewrite flatten_plain_eq. cbv zeta.
  assert (A : is_array_of_compound code = false) by (destruct C; subst; reflexivity).
  assert (B : (code =? tc_Struct) || (code =? tc_Union) = true) by (destruct C; subst; reflexivity).
  assert (D : 0 <= code < 256) by (destruct C; subst; unfold tc_Struct, tc_Union; lia).
  pose proof (zlen_nonneg cs).
  assert (Z1 : zlen (iter_from (base_of code) cs) = zlen cs) by (unfold zlen; now rewrite iter_from_length).
  destruct C as [-> | ->].
  - change (tc_Struct =? tc_Struct) with true. cbv iota.
    cbn [set_parent app]. rewrite to_wire_desc_S. cbv zeta.
    cbn [f_code f_id f_iter f_members]. rewrite A, B. change (tc_Struct =? tc_Struct) with true. cbv iota.
    rewrite to_wire_code by assumption. rewrite to_wire_str_out by (unfold wire_str in W; lia).
    rewrite Z1, to_wire_size_out by lia.
    change (base_of tc_Struct) with 1%nat.
    rewrite (enc_loop_out h be fuel cs F true 1%nat _ rest) by reflexivity.
    rewrite <- !app_assoc. reflexivity.
  - change (tc_Union =? tc_Struct) with false. cbv iota.
    cbn [set_parent app]. rewrite to_wire_desc_S. cbv zeta.
    cbn [f_code f_id f_iter f_members]. rewrite A, B. change (tc_Union =? tc_Struct) with false. cbv iota.
    rewrite to_wire_code by assumption. rewrite to_wire_str_out by (unfold wire_str in W; lia).
    rewrite Z1, to_wire_size_out by lia.
    change (base_of tc_Union) with 0%nat.
    rewrite (enc_loop_out h be fuel cs F false 0%nat _ []) by (now rewrite app_nil_r).
    rewrite <- !app_assoc. reflexivity.
Qed.

Lemma array_scalar code : is_array_of_compound code = true ->
  0 <= code < 256 /\ (tc_scalarOf code = tc_Struct \/ tc_scalarOf code = tc_Union).
Proof.
  unfold is_array_of_compound. intro H. apply orb_true_iff in H as [H|H]; apply Z.eqb_eq in H; subst;
  (split; [unfold tc_StructA, tc_UnionA; lia|]); [left|right]; reflexivity.
Qed.
Lemma has_members_cases code : has_members code = true ->
  is_array_of_compound code = true \/ (is_array_of_compound code = false /\ (code = tc_Struct \/ code = tc_Union)).
Proof.
  unfold has_members. destruct (is_array_of_compound code); [auto|]. intro H. right. split; [reflexivity|].
  rewrite orb_false_r in H. apply orb_true_iff in H as [H|H]; apply Z.eqb_eq in H; auto.
Qed.
Lemma describable_inv code name id cs : describable (Mem code name id cs) = true ->
  (has_members code = true /\ wire_str id = true /\ zlen cs <= 0xffffffff /\
   Forall (fun c => wire_str (m_name c) = true /\ describable c = true) cs) \/
  (has_members code = false /\ leaf_code code = true /\ id = [] /\ cs = []).
Proof.
  cbn [describable]. destruct (has_members code); intro H; [left|right].
  - rewrite !andb_true_iff in H. destruct H as [[H1 H2] H3]. split; [reflexivity|]. split; [assumption|].
    split; [lia|]. apply forallb_Forall in H3. eapply Forall_impl; [|exact H3].
    intros c X. apply andb_true_iff in X. exact X.
  - rewrite !andb_true_iff in H. destruct H as [[H1 H2] H3]. destruct id, cs; try discriminate. auto.
Qed.

Lemma encodes_all h be m : describable m = true -> encodes h be m.
Proof.
  induction m as [code name id cs IH] using member_ind'. intro D.
  intros fuel p rest pre L. destruct (levels_ge _ _ _ _ _ L) as (n & -> & LA).
  pose proof (levels_children _ _ _ _ _ L) as LC.
  destruct (describable_inv _ _ _ _ D) as [(M & W & N & F)|(M & LF & -> & ->)].
  - assert (F' : forall k, (k = S n - (if is_array_of_compound code then 2 else 1))%nat ->
      Forall (fun c => wire_str (m_name c) = true /\ encodes h be c /\ (levels c <= k)%nat) cs).
    { intros k ->. rewrite Forall_forall in *. intros c I. destruct (F c I). split; [assumption|].
      split; [apply IH; assumption|]. apply LC; assumption. }
    rewrite flatten_eq. cbn [enc_type].
    destruct (has_members_cases _ M) as [A|[A C]]; rewrite A in *.
    + destruct (LA eq_refl) as (n2 & ->). cbn [set_parent app]. rewrite to_wire_desc_S. cbv zeta.
      cbn [f_code f_members]. rewrite A. destruct (array_scalar _ A) as [B SC].
      rewrite to_wire_code by assumption.
      pose proof (enc_plain_out h be n2 (tc_scalarOf code) id cs 0 [] (pre ++ [code]) SC W N
        (F' n2 ltac:(lia))) as E.
      rewrite app_nil_r in E.
      assert (SP : set_parent 0 (flatten_plain (tc_scalarOf code) id cs) = flatten_plain (tc_scalarOf code) id cs).
      { rewrite flatten_plain_eq. cbv zeta. destruct (_ =? _); reflexivity. }
      rewrite SP in E. rewrite E. rewrite <- app_assoc. reflexivity.
    + rewrite (enc_plain_out h be n code id cs p rest pre C W N (F' n ltac:(lia))).
      replace ((code =? tc_Struct) || (code =? tc_Union)) with true by (destruct C; subst; reflexivity).
      reflexivity.
  - rewrite flatten_eq. cbn [enc_type]. unfold has_members in M. apply orb_false_iff in M as [M1 M2]. rewrite M2, M1.
    rewrite flatten_plain_eq. cbv zeta. apply orb_false_iff in M1 as [M3 M4]. rewrite M3.
    cbn [set_parent app kids_from iter_from look_from]. rewrite to_wire_desc_S. cbv zeta. cbn [f_code].
    rewrite M2, M3, M4. cbn [orb]. rewrite to_wire_code by (now apply leaf_byte). reflexivity.
Qed.

(** ** the decoder *)
Definition desc_loop (rec : tstore -> rbuf -> list fdesc * tstore * rbuf) (host : bool) :=
  fix loop (cnt : nat) (fld : fdesc) (kids : list fdesc) (cache : tstore) (name : str) (b : rbuf)
    : fdesc * list fdesc * tstore * rbuf :=
    match cnt with
    | O => (fld, kids, cache, b)
    | S cnt' =>
        let '(name1, b1) := from_wire_str host name b in
        let '(new, cache', b2) := rec cache b1 in
        if negb (rgood b2) || is_nil new
        then (fld, kids ++ new, cache', rfault b2)
        else
          let '(fld', kids') := attach_child fld kids name1 new in
          loop cnt' fld' kids' cache' (name1 ++ [dot]) b2
    end.
Lemma from_wire_desc_S n host cache b :
  from_wire_desc (S n) host cache b =
  if negb (rgood b) then ([], cache, rfault b)
  else
      let '(code, b1) := from_wire_u host 1 tc_Null b in
      if code =? tc_Null then ([], cache, b1)
      else if code =? 0xfd then
        let '(key, b2) := from_wire_u host 2 0 b1 in
        let '(new, cache', b3) := from_wire_desc n host cache b2 in
        if negb (rgood b3) || is_nil new then (new, cache', rfault b3)
        else (set_parent 0 new, ts_emplace key new cache', b3)
      else if code =? 0xfe then
        let '(key, b2) := from_wire_u host 2 0 b1 in
        match ts_find key cache with
        | None => ([], cache, rfault b2)
        | Some nodes =>
            if negb (rgood b2) || is_nil nodes then ([], cache, rfault b2)
            else (nodes, cache, b2)
        end
      else if negb (Z.land code 0x10 =? 0) then ([], cache, rfault b1)
      else if is_array_of_compound code then
        let '(mem, cache', b2) := from_wire_desc n host cache b1 in
        let node := FD [] [] [] 0 mem code in
        if negb (rgood b2) || is_nil mem
           || negb (f_code (hd (fd_new tc_Null) mem) =? tc_scalarOf code)
        then ([node], cache', rfault b2)
        else ([node], cache', b2)
      else if (code =? tc_Struct) || (code =? tc_Union) then
        let '(id, b2) := from_wire_str host [] b1 in
        let '(nfld, b3) := from_wire_size host 0 false b2 in
        let '(fld, kids, cache', b4) :=
          desc_loop (from_wire_desc n host) host (Z.to_nat nfld) (FD id [] [] 0 [] code) [] cache [] b3 in
        (finish_node fld kids, cache', b4)
      else if tc_simple_scalar (tc_scalarOf code) then ([fd_new code], cache, b1)
      else ([fd_new code], cache, rfault b1).
Proof. reflexivity. Qed.

Definition decodes (h be : bool) (m : member) : Prop :=
  forall n cache rest, (levels m <= n)%nat ->
    from_wire_desc n h cache (inbuf (enc_type be m ++ rest) be) = (flatten m, cache, inbuf rest be).

Lemma desc_loop_in h be n cs :
  Forall (fun c => wire_str (m_name c) = true /\ decodes h be c /\ (levels c <= n)%nat) cs ->
  forall fld kids cache name rest,
  desc_loop (from_wire_desc n h) h (length cs) fld kids cache name
    (inbuf (concat (map (fun c => enc_str be (m_name c) ++ enc_type be c) cs) ++ rest) be)
  = (fst (attach_all cs fld kids), snd (attach_all cs fld kids), cache, inbuf rest be).
Proof.
  induction 1 as [|c cs (N & D & L) _ IH]; intros; [reflexivity|].
  cbn [length desc_loop map concat attach_all]. rewrite <- !app_assoc.
  rewrite from_wire_str_in by (unfold wire_str in N; lia).
  rewrite D by assumption. cbn [rgood rerr inbuf negb orb]. rewrite flatten_nonnil.
  destruct (attach_child fld kids (m_name c) (flatten c)) as [fld' kids'].
  fold (desc_loop (from_wire_desc n h) h). fold (inbuf (concat (map (fun c => enc_str be (m_name c) ++ enc_type be c) cs) ++ rest) be).
  now rewrite IH.
Qed.

Lemma decode_plain h be n cache code id cs rest :
  (code = tc_Struct \/ code = tc_Union) ->
  wire_str id = true -> zlen cs <= 0xffffffff ->
  Forall (fun c => wire_str (m_name c) = true /\ decodes h be c /\ (levels c <= n)%nat) cs ->
  from_wire_desc (S n) h cache (inbuf (([code] ++ enc_str be id ++ enc_size be (zlen cs)
            ++ concat (map (fun c => enc_str be (m_name c) ++ enc_type be c) cs)) ++ rest) be)
  = (flatten_plain code id cs, cache, inbuf rest be).
Proof.
  intros C W N F. rewrite from_wire_desc_S. cbn [rgood rerr inbuf negb].
  fold (inbuf ([code] ++ enc_str be id ++ enc_size be (zlen cs) ++ concat (map (fun c => enc_str be (m_name c) ++ enc_type be c) cs) ++ rest) be).
  rewrite <- !app_assoc. cbn [app].
  rewrite from_wire_code by (destruct C; subst; unfold tc_Struct, tc_Union; lia).
  assert (code =? tc_Null = false /\ code =? 0xfd = false /\ code =? 0xfe = false /\ Z.land code 0x10 =? 0 = true
     /\ is_array_of_compound code = false /\ (code =? tc_Struct) || (code =? tc_Union) = true) as (E1 & E2 & E3 & E4 & E5 & E6)
   by (destruct C; subst; repeat split).
  rewrite E1, E2, E3, E4, E5, E6. cbn [negb].
  rewrite from_wire_str_in by (unfold wire_str in W; lia). pose proof (zlen_nonneg cs).
  rewrite from_wire_size_in by lia. rewrite zlen_to_nat.
  rewrite desc_loop_in by assumption. unfold flatten_plain.
  destruct (attach_all cs _ []) as [fld kids]. reflexivity.
Qed.

Lemma decodes_all h be m : describable m = true -> decodes h be m.
Proof.
  induction m as [code name id cs IH] using member_ind'. intro D.
  intros fuel cache rest L. destruct (levels_ge _ _ _ _ _ L) as (n & -> & LA).
  pose proof (levels_children _ _ _ _ _ L) as LC.
  destruct (describable_inv _ _ _ _ D) as [(M & W & N & F)|(M & LF & -> & ->)].
  - assert (F' : forall k, (k = S n - (if is_array_of_compound code then 2 else 1))%nat ->
      Forall (fun c => wire_str (m_name c) = true /\ decodes h be c /\ (levels c <= k)%nat) cs).
    { intros k ->. rewrite Forall_forall in *. intros c I. destruct (F c I). split; [assumption|].
      split; [apply IH; assumption|]. apply LC; assumption. }
    rewrite flatten_eq. cbn [enc_type].
    destruct (has_members_cases _ M) as [A|[A C]]; rewrite A in *.
    + destruct (LA eq_refl) as (n2 & ->). destruct (array_scalar _ A) as [B SC].
      rewrite from_wire_desc_S. cbn [rgood rerr inbuf negb].
      rewrite <- !app_assoc. cbn [app].
          rewrite from_wire_code by assumption.
      assert (code =? tc_Null = false /\ code =? 0xfd = false /\ code =? 0xfe = false /\ Z.land code 0x10 =? 0 = true)
        as (E1 & E2 & E3 & E4).
      { unfold is_array_of_compound in A. apply orb_true_iff in A as [A|A]; apply Z.eqb_eq in A; subst; repeat split. }
      rewrite E1, E2, E3, E4, A. cbn [negb].
      pose proof (decode_plain h be n2 cache (tc_scalarOf code) id cs rest SC W N (F' n2 ltac:(lia))) as E.
      rewrite <- !app_assoc in E. cbn [app] in E. rewrite E. cbn [rgood rerr inbuf negb orb].
      rewrite flatten_plain_eq. cbv zeta.
      destruct SC as [SC|SC]; rewrite SC; cbn [is_nil hd f_code orb]; reflexivity.
    + replace ((code =? tc_Struct) || (code =? tc_Union)) with true by (destruct C; subst; reflexivity).
      apply decode_plain; auto. apply F'. lia.
  - rewrite flatten_eq. cbn [enc_type].
    destruct (leaf_not_special _ LF) as (E1 & E2 & E3 & E4 & E5).
    unfold has_members in M. apply orb_false_iff in M as [M1 M2]. rewrite M2, M1.
    rewrite flatten_plain_eq. cbv zeta. apply orb_false_iff in M1 as [M3 M4]. rewrite M3.
    cbn [app]. rewrite from_wire_desc_S. cbn [rgood rerr inbuf negb].
    fold (inbuf (code :: rest) be). rewrite from_wire_code by (now apply leaf_byte).
    replace (code =? tc_Null) with false by lia. replace (code =? 0xfd) with false by lia.
    replace (code =? 0xfe) with false by lia. rewrite E4. cbn [Z.eqb negb]. rewrite M2, M3, M4. cbn [orb].
    replace (tc_simple_scalar (tc_scalarOf code)) with true by (unfold leaf_code in LF; lia).
    reflexivity.
Qed.

(** ** safety of the decoder on arbitrary input *)
Lemma safe_desc_loop rec h : (forall cache b, safe_step b (snd (rec cache b))) ->
  forall cnt fld kids cache name b, safe_step b (snd (desc_loop rec h cnt fld kids cache name b)).
Proof.
  intro R. induction cnt as [|cnt IH]; intros; cbn [desc_loop]; [apply safe_refl|].
  pose proof (safe_from_wire_str h name b) as S1. destruct (from_wire_str h name b) as [name1 b1]. cbn [snd] in S1.
  pose proof (R cache b1) as S2. destruct (rec cache b1) as [[new cache'] b2]. cbn [snd] in S2.
  pose proof (safe_trans _ _ _ S1 S2) as S3.
  destruct (_ || _).
  - eapply safe_trans; [exact S3|apply safe_rfault].
  - destruct (attach_child fld kids name1 new) as [fld' kids']. eapply safe_trans; [exact S3|apply IH].
Qed.
Lemma safe_from_wire_desc h n : forall cache b, safe_step b (snd (from_wire_desc n h cache b)).
Proof.
  induction n as [|n IH]; intros cache b.
  { cbn. destruct (negb (rgood b)); apply safe_rfault. }
  rewrite from_wire_desc_S. destruct (negb (rgood b)); [apply safe_rfault|].
  pose proof (safe_from_wire_u h 1 tc_Null b) as S1. destruct (from_wire_u h 1 tc_Null b) as [code b1]. cbn [snd] in S1.
  destruct (code =? tc_Null); [exact S1|].
  destruct (code =? 0xfd).
  { pose proof (safe_from_wire_u h 2 0 b1) as S2. destruct (from_wire_u h 2 0 b1) as [key b2]. cbn [snd] in S2.
    pose proof (IH cache b2) as S3. destruct (from_wire_desc n h cache b2) as [[new cache'] b3]. cbn [snd] in S3.
    pose proof (safe_trans _ _ _ (safe_trans _ _ _ S1 S2) S3) as S4.
    destruct (_ || _); [|exact S4]. eapply safe_trans; [exact S4|apply safe_rfault]. }
  destruct (code =? 0xfe).
  { pose proof (safe_from_wire_u h 2 0 b1) as S2. destruct (from_wire_u h 2 0 b1) as [key b2]. cbn [snd] in S2.
    pose proof (safe_trans _ _ _ S1 S2) as S4.
    assert (S5 : safe_step b (rfault b2)) by (eapply safe_trans; [exact S4|apply safe_rfault]).
    destruct (ts_find key cache) as [nodes|]; [|exact S5]. destruct (_ || _); assumption. }
  destruct (negb _). { eapply safe_trans; [exact S1|apply safe_rfault]. }
  destruct (is_array_of_compound code).
  { pose proof (IH cache b1) as S3. destruct (from_wire_desc n h cache b1) as [[mem cache'] b3]. cbn [snd] in S3.
    pose proof (safe_trans _ _ _ S1 S3) as S4. cbv zeta.
    destruct (_ || _); [|exact S4]. eapply safe_trans; [exact S4|apply safe_rfault]. }
  destruct (_ || _).
  { pose proof (safe_from_wire_str h [] b1) as S2. destruct (from_wire_str h [] b1) as [id b2]. cbn [snd] in S2.
    pose proof (safe_from_wire_size h 0 false b2) as S3. destruct (from_wire_size h 0 false b2) as [nfld b3]. cbn [snd] in S3.
    pose proof (safe_desc_loop _ h (fun c b => IH c b) (Z.to_nat nfld) (FD id [] [] 0 [] code) [] cache [] b3) as S4.
    destruct (desc_loop _ _ _ _ _ _ _ _) as [[[fld kids] cache'] b4]. cbn [snd] in *.
    eapply safe_trans; [exact S1|]. eapply safe_trans; [exact S2|]. eapply safe_trans; eassumption. }
  destruct (tc_simple_scalar _); [exact S1|]. eapply safe_trans; [exact S1|apply safe_rfault].
Qed.

Lemma rsize_null_range h b : is_bytes (rd b) ->
  0 <= fst (from_wire_size h 0 true b) <= 0xffffffff \/ fst (from_wire_size h 0 true b) = size_null.
Proof.
  intro B. pose proof (from_wire_size_range h b B) as R. unfold from_wire_size in *.
  destruct (rensure 1 b); cbn [negb] in *; [|left; exact R].
  destruct (_ <? 254); [left; exact R|]. destruct (_ =? 254); [left; exact R|].
  destruct (_ =? 255); cbn [andb fst]; [now right|left; lia].
Qed.
Lemma from_wire_str_len h i b : is_bytes (rd b) -> rerr (snd (from_wire_str h i b)) = false ->
  wire_str (fst (from_wire_str h i b)) = true.
Proof.
  intros B. unfold from_wire_str. pose proof (rsize_null_range h b B) as R.
  destruct (from_wire_size h 0 true b) as [len b1]. cbn [fst] in R.
  unfold size_null in *. destruct (Z.eqb_spec len (2 ^ 64 - 1)); [intros; cbn; lia|].
  destruct (rensure len b1) eqn:E; cbn [negb fst snd]; [|cbn; discriminate].
  intros _. unfold wire_str, zlen. rewrite firstn_length. lia.
Qed.
Lemma good_before b b' : safe_step b b' -> rerr b' = false -> rerr b = false.
Proof. intros [_ S] H. destruct (rerr b) eqn:E; [|reflexivity]. destruct (S eq_refl). congruence. Qed.
Lemma safe_bytes_str h i b : is_bytes (rd b) -> is_bytes (rd (snd (from_wire_str h i b))).
Proof. apply safe_bytes, safe_from_wire_str. Qed.

Lemma attach_all_app cs1 cs2 fld kids :
  attach_all (cs1 ++ cs2) fld kids = attach_all cs2 (fst (attach_all cs1 fld kids)) (snd (attach_all cs1 fld kids)).
Proof.
  revert fld kids. induction cs1 as [|c cs1 IH]; intros; cbn [app attach_all]; [reflexivity|].
  destruct (attach_child fld kids (m_name c) (flatten c)) as [f k]. apply IH.
Qed.

Definition is_type (nodes : list fdesc) : Prop := exists m, describable m = true /\ nodes = flatten m.

Lemma ts_emplace_ok k v c : cache_ok c -> is_type v -> cache_ok (ts_emplace k v c).
Proof.
  intros C V. unfold ts_emplace. destruct (ts_find k c) eqn:E; [exact C|].
  intros k' v' H. cbn [ts_find] in H. destruct (k' =? k).
  - inversion H; subst. exact V.
  - eapply C; eassumption.
Qed.

Definition good_decode (rec : tstore -> rbuf -> list fdesc * tstore * rbuf) : Prop :=
  forall cache b, cache_ok cache -> is_bytes (rd b) ->
    cache_ok (snd (fst (rec cache b))) /\
    (rerr (snd (rec cache b)) = false -> fst (fst (rec cache b)) = [] \/ is_type (fst (fst (rec cache b)))).

Lemma desc_loop_types rec h : good_decode rec -> (forall cache b, safe_step b (snd (rec cache b))) ->
  forall cnt cs fld0 cache name b, cache_ok cache -> is_bytes (rd b) ->
  Forall (fun c => wire_str (m_name c) = true /\ describable c = true) cs ->
  let '(fld, kids, cache', b') :=
    desc_loop rec h cnt (fst (attach_all cs fld0 [])) (snd (attach_all cs fld0 [])) cache name b in
  cache_ok cache' /\
  (rerr b' = false -> exists cs', length cs' = (length cs + cnt)%nat /\
     Forall (fun c => wire_str (m_name c) = true /\ describable c = true) cs' /\
     (fld, kids) = attach_all cs' fld0 []).
Proof.
  intros G S. induction cnt as [|cnt IH]; intros cs fld0 cache name b C B F; cbn [desc_loop].
  { split; [exact C|]. intros _. exists cs. split; [lia|]. split; [exact F|]. now destruct (attach_all cs fld0 []). }
  pose proof (from_wire_str_len h name b B) as LN. pose proof (safe_bytes_str h name b B) as B1.
  destruct (from_wire_str h name b) as [name1 b1]. cbn [fst snd] in *.
  pose proof (S cache b1) as S2. destruct (G cache b1 C B1) as [G1 G2].
  destruct (rec cache b1) as [[new cache'] b2]. cbn [fst snd] in *.
  unfold rgood. rewrite negb_involutive.
  destruct (rerr b2) eqn:E2; cbn [orb].
  { split; [exact G1|]. cbn. discriminate. }
  destruct (is_nil new) eqn:EN. { split; [exact G1|]. cbn. discriminate. }
  destruct (G2 eq_refl) as [->|(m & Dm & ->)]; [discriminate|].
  pose proof (good_before _ _ S2 E2) as E1.
  set (c := rename name1 m).
  assert (X : attach_child (fst (attach_all cs fld0 [])) (snd (attach_all cs fld0 [])) name1 (flatten m)
    = attach_all (cs ++ [c]) fld0 []).
  { rewrite attach_all_app. cbn [attach_all]. unfold c at 2. rewrite flatten_rename.
    cbn [m_name c rename]. now destruct (attach_child _ _ _ _). }
  rewrite X. specialize (IH (cs ++ [c]) fld0 cache' (name1 ++ [dot]) b2 G1 (safe_bytes _ _ S2 B1)).
  destruct (attach_all (cs ++ [c]) fld0 []) as [fld' kids']. cbn [fst snd] in IH.
  fold (desc_loop rec h).
  destruct (desc_loop rec h cnt fld' kids' cache' (name1 ++ [dot]) b2) as [[[fld kids] cache''] b4].
  rewrite app_length in IH. cbn [length] in IH.
  replace (length cs + Datatypes.S cnt)%nat with (length cs + 1 + cnt)%nat by lia.
  apply IH. apply Forall_app. split; [exact F|]. constructor; [|constructor].
  split; [cbn [m_name c rename]; apply LN; exact E1|]. destruct m; exact Dm.
Qed.

Lemma from_wire_desc_types h n : good_decode (from_wire_desc n h).
Proof.
  induction n as [|n IH]; intros cache b C B.
  { cbn. destruct (negb (rgood b)); cbn; split; auto; discriminate. }
  rewrite from_wire_desc_S. destruct (negb (rgood b)); [cbn; split; auto; discriminate|].
  pose proof (from_wire_u_range h 1 tc_Null b B ltac:(unfold tc_Null; cbn; lia)) as RC.
  change (2 ^ (8 * Z.of_nat 1)) with 256 in RC.
  pose proof (safe_bytes _ _ (safe_from_wire_u h 1 tc_Null b) B) as B1.
  destruct (from_wire_u h 1 tc_Null b) as [code b1]. cbn [fst snd] in RC, B1.
  destruct (code =? tc_Null) eqn:C1; [cbn; auto|].
  destruct (code =? 0xfd) eqn:C2.
  { pose proof (safe_bytes _ _ (safe_from_wire_u h 2 0 b1) B1) as B2.
    destruct (from_wire_u h 2 0 b1) as [key b2]. cbn [snd] in B2.
    destruct (IH cache b2 C B2) as [G1 G2].
    destruct (from_wire_desc n h cache b2) as [[new cache'] b3]. cbn [fst snd] in *.
    unfold rgood. rewrite negb_involutive. destruct (rerr b3) eqn:E3; [cbn; split; [assumption|discriminate]|].
    destruct (is_nil new) eqn:EN; [cbn; split; [assumption|discriminate]|]. cbn [orb fst snd].
    destruct (G2 eq_refl) as [->|T]; [discriminate|].
    split; [now apply ts_emplace_ok|]. intros _. right. destruct T as (m & D & ->).
    exists m. split; [assumption|]. apply set_parent_flatten. }
  destruct (code =? 0xfe) eqn:C3.
  { destruct (from_wire_u h 2 0 b1) as [key b2].
    destruct (ts_find key cache) as [nodes|] eqn:E; [|cbn; split; [assumption|discriminate]].
    destruct (_ || _); cbn [fst snd]; [split; [assumption|cbn; discriminate]|].
    split; [assumption|]. intros _. right. eapply C; exact E. }
  destruct (negb (Z.land code 0x10 =? 0)) eqn:C4; [cbn; split; [assumption|discriminate]|].
  destruct (is_array_of_compound code) eqn:A.
  { destruct (IH cache b1 C B1) as [G1 G2].
    destruct (from_wire_desc n h cache b1) as [[mem cache'] b2]. cbn [fst snd] in *. cbv zeta.
    unfold rgood. rewrite negb_involutive. destruct (rerr b2) eqn:E2; [cbn; split; [assumption|discriminate]|].
    destruct (is_nil mem) eqn:EN; [cbn; split; [assumption|discriminate]|]. cbn [orb].
    destruct (G2 eq_refl) as [->|(m & D & ->)]; [discriminate|].
    rewrite flatten_hd_code. destruct (Z.eqb_spec (m_code m) (tc_scalarOf code)) as [K|K]; cbn [negb fst snd];
      (split; [assumption|]); [|cbn; discriminate].
    intros _. right. destruct m as [mc mn mi mcs]. cbn [m_code] in K. subst mc.
    exists (Mem code mn mi mcs). destruct (array_scalar _ A) as [_ SC].
    assert (HM : has_members (tc_scalarOf code) = true /\ is_array_of_compound (tc_scalarOf code) = false)
      by (destruct SC as [-> | ->]; split; reflexivity).
    destruct HM as [HM1 HM2].
    split.
    - cbn [describable] in D |- *. rewrite HM1 in D. replace (has_members code) with true; [exact D|].
      unfold has_members. rewrite A. now rewrite !orb_true_r.
    - rewrite !flatten_eq. rewrite A, HM2. reflexivity. }
  destruct ((code =? tc_Struct) || (code =? tc_Union)) eqn:SU.
  { pose proof (from_wire_str_len h [] b1 B1) as LI. pose proof (safe_bytes_str h [] b1 B1) as B2.
    destruct (from_wire_str h [] b1) as [id b2]. cbn [fst snd] in *.
    pose proof (from_wire_size_range h b2 B2) as RS.
    pose proof (safe_from_wire_size h 0 false b2) as S3.
    pose proof (safe_bytes _ _ S3 B2) as B3.
    destruct (from_wire_size h 0 false b2) as [nfld b3]. cbn [fst snd] in *.
    pose proof (desc_loop_types (from_wire_desc n h) h IH (safe_from_wire_desc h n) (Z.to_nat nfld) []
      (FD id [] [] 0 [] code) cache [] b3 C B3 (Forall_nil _)) as L.
    pose proof (safe_desc_loop _ h (safe_from_wire_desc h n) (Z.to_nat nfld) (FD id [] [] 0 [] code) [] cache [] b3) as S4.
    cbn [attach_all fst snd] in L.
    destruct (desc_loop _ _ _ _ _ _ _ _) as [[[fld kids] cache'] b4]. cbn [fst snd] in *.
    destruct L as [L1 L2]. split; [exact L1|]. intro E4. right.
    destruct (L2 E4) as (cs & N & F & EQ). exists (Mem code [] id cs).
    pose proof (good_before _ _ S3 (good_before _ _ S4 E4)) as E2.
    split.
    - cbn [describable]. unfold has_members. rewrite A, orb_false_r, SU, (LI E2).
      replace (zlen cs <=? 0xffffffff) with true by (unfold zlen; cbn [length] in N; lia). cbn [andb].
      apply forallb_Forall. eapply Forall_impl; [|exact F]. intros c [X Y]. now rewrite X, Y.
    - rewrite flatten_eq, A. unfold flatten_plain. now rewrite <- EQ. }
  destruct (tc_simple_scalar (tc_scalarOf code)) eqn:SS; cbn [fst snd]; (split; [assumption|]); [|cbn; discriminate].
  intros _. right. exists (Mem code [] [] []). cbn [describable]. unfold has_members. rewrite A, SU.
  cbn [orb is_nil]. unfold leaf_code. rewrite SS. split; [lia|].
  rewrite flatten_eq, A, flatten_plain_eq. cbv zeta. apply orb_false_iff in SU as [SU _]. rewrite SU. reflexivity.
Qed.

(** ** the decoder as a buffer program *)
Definition p_desc_loop (rec : tstore -> rprog (list fdesc * tstore)) (host : bool) :=
  fix loop (cnt : nat) (fld : fdesc) (kids : list fdesc) (cache : tstore) (name : str)
    : rprog (fdesc * list fdesc * tstore) :=
    match cnt with
    | O => PRet (fld, kids, cache)
    | S cnt' =>
        pbind (p_str host name) (fun name1 =>
        pbind (rec cache) (fun r =>
        PGood (fun g =>
        if negb g || is_nil (fst r) then PFault (PRet (fld, kids ++ fst r, snd r))
        else let '(fld', kids') := attach_child fld kids name1 (fst r) in
             loop cnt' fld' kids' (snd r) (name1 ++ [dot]))))
    end.
Fixpoint p_desc (n : nat) (host : bool) (cache : tstore) : rprog (list fdesc * tstore) :=
  PGood (fun g => if negb g then PFault (PRet ([], cache)) else
  match n with
  | O => PFault (PRet ([], cache))
  | S n' =>
      pbind (p_u host 1 tc_Null) (fun code =>
      if code =? tc_Null then PRet ([], cache)
      else if code =? 0xfd then
        pbind (p_u host 2 0) (fun key => pbind (p_desc n' host cache) (fun r =>
        PGood (fun g => if negb g || is_nil (fst r) then PFault (PRet r)
                        else PRet (set_parent 0 (fst r), ts_emplace key (fst r) (snd r)))))
      else if code =? 0xfe then
        pbind (p_u host 2 0) (fun key =>
        match ts_find key cache with
        | None => PFault (PRet ([], cache))
        | Some nodes => PGood (fun g => if negb g || is_nil nodes then PFault (PRet ([], cache)) else PRet (nodes, cache))
        end)
      else if negb (Z.land code 0x10 =? 0) then PFault (PRet ([], cache))
      else if is_array_of_compound code then
        pbind (p_desc n' host cache) (fun r =>
        PGood (fun g => if negb g || is_nil (fst r) || negb (f_code (hd (fd_new tc_Null) (fst r)) =? tc_scalarOf code)
                        then PFault (PRet ([FD [] [] [] 0 (fst r) code], snd r))
                        else PRet ([FD [] [] [] 0 (fst r) code], snd r)))
      else if (code =? tc_Struct) || (code =? tc_Union) then
        pbind (p_str host []) (fun id => pbind (p_size host 0 false) (fun nfld =>
        pbind (p_desc_loop (p_desc n' host) host (Z.to_nat nfld) (FD id [] [] 0 [] code) [] cache [])
          (fun r => PRet (finish_node (fst (fst r)) (snd (fst r)), snd r))))
      else if tc_simple_scalar (tc_scalarOf code) then PRet ([fd_new code], cache)
      else PFault (PRet ([fd_new code], cache)))
  end).
Lemma p_desc_loop_ok rec dec h :
  (forall cache b, run_flat (rec cache) b = dec cache b) ->
  forall cnt fld kids cache name b,
  run_flat (p_desc_loop rec h cnt fld kids cache name) b = desc_loop dec h cnt fld kids cache name b.
Proof.
  intro R. induction cnt as [|cnt IH]; intros; [reflexivity|].
  cbn [p_desc_loop desc_loop]. rewrite run_flat_bind, p_str_ok. destruct (from_wire_str h name b) as [name1 b1].
  rewrite run_flat_bind, R. destruct (dec cache b1) as [[new cache'] b2]. cbn [run_flat fst snd].
  destruct (_ || _); [reflexivity|]. destruct (attach_child fld kids name1 new) as [f k]. apply IH.
Qed.
Lemma p_desc_ok h n : forall cache, buffer_program (from_wire_desc n h cache) (p_desc n h cache).
Proof.
  induction n as [|n IH]; intros cache b.
  { cbn. destruct (negb (rgood b)); reflexivity. }
  rewrite from_wire_desc_S. cbn [p_desc run_flat]. destruct (negb (rgood b)); [reflexivity|].
  rewrite run_flat_bind, p_u_ok. destruct (from_wire_u h 1 tc_Null b) as [code b1].
  destruct (code =? tc_Null); [reflexivity|].
  destruct (code =? 0xfd).
  { rewrite run_flat_bind, p_u_ok. destruct (from_wire_u h 2 0 b1) as [key b2].
    rewrite run_flat_bind, IH. destruct (from_wire_desc n h cache b2) as [[new cache'] b3]. cbn [run_flat fst snd].
    destruct (_ || _); reflexivity. }
  destruct (code =? 0xfe).
  { rewrite run_flat_bind, p_u_ok. destruct (from_wire_u h 2 0 b1) as [key b2].
    destruct (ts_find key cache); [|reflexivity]. cbn [run_flat]. destruct (_ || _); reflexivity. }
  destruct (negb (Z.land code 0x10 =? 0)); [reflexivity|].
  destruct (is_array_of_compound code).
  { rewrite run_flat_bind, IH. destruct (from_wire_desc n h cache b1) as [[new cache'] b3]. cbn [run_flat fst snd].
    destruct (_ || _); reflexivity. }
  destruct (_ || _).
  { rewrite run_flat_bind, p_str_ok. destruct (from_wire_str h [] b1) as [id b2].
    rewrite run_flat_bind, p_size_ok. destruct (from_wire_size h 0 false b2) as [nfld b3].
    rewrite run_flat_bind, (p_desc_loop_ok _ (from_wire_desc n h) h (fun c x => IH c x)).
    destruct (desc_loop _ _ _ _ _ _ _ _) as [[[fld kids] cache'] b4]. reflexivity. }
  destruct (tc_simple_scalar _); reflexivity.
Qed.

(** ** well formed node arrays *)
Definition same_node (d d' : fdesc) : Prop :=
  f_id d = f_id d' /\ f_lookup d = f_lookup d' /\ f_iter d = f_iter d' /\ f_members d = f_members d' /\ f_code d = f_code d'.
Lemma wf_node_shift sub nodes off i d d' :
  (forall j x, (1 <= j)%nat -> nth_error sub j = Some x -> nth_error nodes (off + j) = Some x) ->
  (off + length sub <= length nodes)%nat ->
  wf_node sub i d -> same_node d d' -> wf_node nodes (off + i) d'.
Proof.
  intros N L W (I & LK & IT & M & C). inversion W; subst.
  - apply wf_leaf; congruence.
  - apply (wf_array _ _ _ e rest); try congruence.
  - apply wf_struct; try congruence.
    + intros name k K. rewrite <- IT in K. destruct (H1 name k K) as (K1 & c & K2 & K3). split; [exact K1|].
      exists c. split; [|exact K3]. rewrite <- Nat.add_assoc. apply N; [lia|exact K2].
    + intros path k K. rewrite <- LK in K. destruct (H2 path k K). lia.
  - apply wf_union; [congruence|]. intros name k K. rewrite <- IT, <- LK in K. rewrite <- M. eauto.
Qed.

Lemma nth_error_set_parent p l j : nth_error (set_parent p l) (S j) = nth_error l (S j).
Proof. now destruct l. Qed.

Lemma wf_vec_nodes l : wf_vec l -> forall i d, nth_error l i = Some d -> wf_node l i d.
Proof. inversion 1; auto. Qed.

Lemma nth_error_mid {A} (a b c : list A) j : (j < length b)%nat ->
  nth_error (a ++ b ++ c) (length a + j) = nth_error b j.
Proof.
  intro H. rewrite nth_error_app2 by lia. rewrite nth_error_app1 by lia. f_equal. lia.
Qed.

Lemma kids_wf cs : Forall (fun c => wf_vec (flatten c)) cs ->
  forall pre i d, nth_error (pre ++ kids_from true (length pre) cs) i = Some d -> (length pre <= i)%nat ->
  wf_node (pre ++ kids_from true (length pre) cs) i d.
Proof.
  induction 1 as [|c cs W _ IH]; intros pre i d E L.
  - cbn [kids_from] in E. rewrite app_nil_r in E. apply nth_error_None in L. congruence.
  - cbn [kids_from] in *. set (seg := set_parent (length pre) (flatten c)) in *.
    assert (LS : length seg = length (flatten c)) by apply set_parent_length.
    set (tail := kids_from true (length pre + length (flatten c)) cs) in *.
    destruct (le_lt_dec (length pre + length (flatten c)) i) as [G|G].
    + rewrite app_assoc in E |- *. unfold tail in E |- *.
      rewrite <- LS, <- app_length in E |- *. apply IH; [exact E|]. rewrite app_length. lia.
    + assert (X : exists j, i = (length pre + j)%nat /\ (j < length (flatten c))%nat) by (exists (i - length pre)%nat; lia).
      destruct X as (j & -> & J). rewrite nth_error_mid in E by lia.
      assert (exists d0, nth_error (flatten c) j = Some d0 /\ same_node d0 d) as (d0 & E0 & SN).
      { unfold seg in E. destruct j as [|j].
        - destruct (flatten_cons c) as (h & t & F & _). rewrite F in *. cbn in E. inversion E; subst. cbn.
          exists h. repeat split.
        - rewrite nth_error_set_parent in E. exists d. repeat split. exact E. }
      apply (wf_node_shift (flatten c) _ (length pre) j d0 d); auto.
      * intros k x K1 K2. rewrite nth_error_mid.
        -- unfold seg. destruct k; [lia|]. now rewrite nth_error_set_parent.
        -- rewrite LS. apply nth_error_Some. congruence.
      * rewrite !app_length. lia.
      * now apply wf_vec_nodes.
Qed.

Lemma iter_kids cs : forall pre name k, In (name, k) (iter_from (length pre) cs) ->
  (length pre <= k)%nat /\
  exists d, nth_error (pre ++ kids_from true (length pre) cs) k = Some d /\ f_parent d = k.
Proof.
  induction cs as [|c cs IH]; intros pre name k I; [easy|]. cbn [iter_from kids_from] in *.
  destruct I as [I|I].
  - inversion I; subst. split; [lia|]. destruct (flatten_cons c) as (h & t & F & _). rewrite F. cbn [set_parent app].
    rewrite nth_error_app2 by lia. rewrite Nat.sub_diag. cbn. eexists. split; reflexivity.
  - set (seg := set_parent (length pre) (flatten c)) in *.
    assert (LS : length seg = length (flatten c)) by apply set_parent_length.
    specialize (IH (pre ++ seg) name k). rewrite app_length, LS in IH. destruct (IH I) as (K & d & D & P).
    split; [lia|]. exists d. rewrite app_assoc. auto.
Qed.

Lemma kids_length st off cs : length (kids_from st off cs) = length (kids_from true 0 cs).
Proof.
  enough (forall cs off st, length (kids_from st off cs) = list_sum (map (fun c => length (flatten c)) cs)) as H
    by (now rewrite !H).
  clear. induction cs as [|c cs IH]; intros; cbn [kids_from map list_sum fold_right]; [reflexivity|].
  rewrite app_length, IH. unfold list_sum. destruct st; now rewrite ?set_parent_length.
Qed.

Lemma map_set_In {V} k (v : V) m p x : In (p, x) (map_set k v m) -> (p = k /\ x = v) \/ In (p, x) m.
Proof.
  induction m as [|[k' v'] m IH]; cbn [map_set].
  - intros [E|[]]. inversion E; auto.
  - destruct (str_ltb k k').
    + intros [E|E]; [inversion E; auto|auto].
    + destruct (str_eqb k k').
      * intros [E|E]; [inversion E; auto|]. right. now right.
      * intros [E|E]; [right; now left|]. destruct (IH E); [auto|]. right. now right.
Qed.
Lemma fold_map_set_In name off l : forall lk p k,
  In (p, k) (fold_left (fun m q => map_set (name ++ dot :: fst q) (off + snd q)%nat m) l lk) ->
  In (p, k) lk \/ exists q j, In (q, j) l /\ k = (off + j)%nat /\ p = name ++ dot :: q.
Proof.
  induction l as [|[q j] l IH]; intros lk p k H; cbn [fold_left] in H; [auto|].
  destruct (IH _ _ _ H) as [I|(q' & j' & I & K & P)].
  - cbn [fst snd] in I. destruct (map_set_In _ _ _ _ _ I) as [[P K]|I']; [|auto].
    right. exists q, j. split; [now left|]. auto.
  - right. exists q', j'. split; [now right|]. auto.
Qed.

Lemma look_from_struct cs : Forall (fun c => wf_vec (flatten c)) cs ->
  forall off lk p k, In (p, k) (look_from true off cs lk) ->
  In (p, k) lk \/ (off <= k < off + length (kids_from true 0 cs))%nat.
Proof.
  induction 1 as [|c cs W _ IH]; intros off lk p k H; cbn [look_from] in H; [auto|].
  cbn [kids_from]. rewrite app_length, set_parent_length, kids_length. pose proof (flatten_length c).
  destruct (IH _ _ _ _ H) as [I|I]; [|right; lia].
  unfold look_child in I. cbn [andb] in I.
  destruct (f_code (hd (fd_new tc_Null) (flatten c)) =? tc_Struct) eqn:E.
  - destruct (fold_map_set_In _ _ _ _ _ _ I) as [J|(q & j & J & -> & _)].
    + destruct (map_set_In _ _ _ _ _ J) as [[_ ->]|J']; [right; lia|auto].
    + right. destruct (flatten_cons c) as (h & t & F & _). rewrite F in *. cbn [hd] in *.
      pose proof (wf_vec_nodes _ W 0%nat h eq_refl) as WN. apply Z.eqb_eq in E. inversion WN as [? ? ? A1 A2 A3 A4|? ? ? ? ? A1|? ? ? A1 A2 A3 A4|? ? ? A1]; subst;
        rewrite E in *; try discriminate.
      destruct (A4 q j J). cbn [length] in *. lia.
  - destruct (map_set_In _ _ _ _ _ I) as [[_ ->]|J']; [right; lia|auto].
Qed.

Lemma union_kids cs : Forall (fun c => wf_vec (flatten c)) cs ->
  forall pre lk name k, In (name, k) (iter_from (length pre) cs ++ look_from false (length pre) cs lk) ->
  In (name, k) lk \/ exists len, wf_vec (firstn len (skipn k (pre ++ kids_from false (length pre) cs))).
Proof.
  induction 1 as [|c cs W _ IH]; intros pre lk name k I; [cbn in I; auto|].
  cbn [iter_from look_from kids_from] in *. unfold look_child in I. cbn [andb] in I.
  assert (HERE : exists len, wf_vec (firstn len (skipn (length pre) (pre ++ flatten c ++ kids_from false (length pre + length (flatten c)) cs)))).
  { exists (length (flatten c)). rewrite skipn_len_app, firstn_len_app. exact W. }
  destruct I as [I|I].
  - inversion I; subst. now right.
  - specialize (IH (pre ++ flatten c) (map_set (m_name c) (length pre) lk) name k).
    rewrite app_length in IH. destruct (IH I) as [J|J].
    + destruct (map_set_In _ _ _ _ _ J) as [[-> ->]|J']; [now right|auto].
    + right. rewrite app_assoc. exact J.
Qed.

Lemma flatten_wf m : describable m = true -> wf_vec (flatten m).
Proof.
  induction m as [code name id cs IH] using member_ind'. intro D.
  destruct (describable_inv _ _ _ _ D) as [(M & W & N & F)|(M & LF & -> & ->)].
  - assert (FW : Forall (fun c => wf_vec (flatten c)) cs).
    { rewrite Forall_forall in *. intros c I. apply IH; [assumption|]. now apply F. }
    assert (PL : forall code, code = tc_Struct \/ code = tc_Union -> wf_vec (flatten_plain code id cs)).
    { clear - FW. intros code [-> | ->]; rewrite flatten_plain_eq; cbv zeta.
      - change (tc_Struct =? tc_Struct) with true. cbv iota. change (base_of tc_Struct) with 1%nat.
        constructor; [easy|]. set (d0 := FD id _ _ _ _ _).
        intros i d E. destruct i as [|i].
        + cbn in E. inversion E; subst d. apply wf_struct; [reflexivity|reflexivity| |].
          * intros nm k K. destruct (iter_kids cs [d0] nm k K) as (K1 & c & K2 & K3). split; [exact K1|]. eauto.
          * intros p k K. destruct (look_from_struct cs FW 1%nat [] p k K) as [[]|K1]. cbn [length].
            rewrite kids_length. lia.
        + apply (kids_wf cs FW [d0] (S i) d E). cbn [length]. lia.
      - change (tc_Union =? tc_Struct) with false. cbv iota. change (base_of tc_Union) with 0%nat.
        constructor; [easy|]. intros i d E. destruct i as [|[|i]]; [|discriminate|discriminate].
        cbn in E. inversion E; subst d. apply wf_union; [reflexivity|]. cbn [f_iter f_lookup f_members].
        intros nm k K. destruct (union_kids cs FW [] [] nm k K) as [[]|X]. exact X. }
    rewrite flatten_eq. destruct (has_members_cases _ M) as [A|[A C]]; rewrite A; [|auto].
    constructor; [easy|]. intros i d E. destruct i as [|[|i]]; [|discriminate|discriminate].
    cbn in E. inversion E; subst d. destruct (array_scalar _ A) as [_ SC].
    specialize (PL _ SC).
    assert (exists e rest, flatten_plain (tc_scalarOf code) id cs = e :: rest /\ f_code e = tc_scalarOf code) as (e & rest & X & Y).
    { rewrite flatten_plain_eq. cbv zeta. destruct (_ =? _); repeat eexists. }
    eapply wf_array; cbn [f_code f_iter f_lookup f_members]; eauto.
  - rewrite flatten_eq. pose proof M as M0. unfold has_members in M. apply orb_false_iff in M as [M1 M2]. rewrite M2.
    rewrite flatten_plain_eq. cbv zeta. apply orb_false_iff in M1 as [M3 M4]. rewrite M3.
    constructor; [easy|]. intros i d E. destruct i as [|[|i]]; [|discriminate|discriminate].
    cbn in E. inversion E; subst d. apply wf_leaf; auto.
Qed.

(** parents *)
Lemma kids_parents cs d0 : f_code d0 = tc_Struct -> Forall (fun c => parents_ok (flatten c)) cs ->
  forall pre, hd_error pre = Some d0 -> (forall name k, In (name, k) (iter_from (length pre) cs) -> In (name, k) (f_iter d0)) ->
  forall i d, nth_error (pre ++ kids_from true (length pre) cs) i = Some d -> (length pre <= i)%nat ->
  exists p name, (f_parent d <= i)%nat /\
    nth_error (pre ++ kids_from true (length pre) cs) (i - f_parent d) = Some p /\
    f_code p = tc_Struct /\ In (name, f_parent d) (f_iter p).
Proof.
  intro C0. induction 1 as [|c cs W _ IH]; intros pre H0 HI i d E L.
  - cbn [kids_from] in E. rewrite app_nil_r in E. apply nth_error_None in L. congruence.
  - cbn [kids_from iter_from] in *. set (seg := set_parent (length pre) (flatten c)) in *.
    assert (LS : length seg = length (flatten c)) by apply set_parent_length.
    set (tail := kids_from true (length pre + length (flatten c)) cs) in *.
    destruct (le_lt_dec (length pre + length (flatten c)) i) as [G|G].
    + rewrite app_assoc in E |- *. unfold tail in E |- *.
      rewrite <- LS, <- app_length in E |- *. apply IH; auto.
      * destruct pre; [discriminate|exact H0].
      * intros nm k K. apply HI. right. rewrite app_length, LS in K. exact K.
      * rewrite app_length. lia.
    + assert (X : exists j, i = (length pre + j)%nat /\ (j < length (flatten c))%nat) by (exists (i - length pre)%nat; lia).
      destruct X as (j & -> & J). rewrite nth_error_mid in E by lia.
      destruct j as [|j].
      * destruct (flatten_cons c) as (h & t & F & _). unfold seg in E. rewrite F in E. cbn in E. inversion E; subst d. cbn [f_parent].
        exists d0, (m_name c). split; [lia|]. rewrite Nat.add_0_r, Nat.sub_diag.
        split; [destruct pre; [discriminate|exact H0]|]. split; [assumption|]. apply HI. now left.
      * unfold seg in E. rewrite nth_error_set_parent in E.
        destruct (W (S j) d E ltac:(lia)) as (p & nm & P1 & P2 & P3 & P4).
        assert (exists p', nth_error seg (S j - f_parent d) = Some p' /\ same_node p p') as (p' & P2' & SN).
        { unfold seg. destruct (S j - f_parent d)%nat as [|z] eqn:Z.
          - destruct (flatten_cons c) as (h & t & F & _). rewrite F in *. cbn in P2. inversion P2; subst. cbn.
            eexists. split; [reflexivity|]. repeat split.
          - rewrite nth_error_set_parent. exists p. split; [exact P2|]. repeat split. }
        destruct SN as (_ & _ & SI & _ & SC).
        exists p', nm. split; [lia|].
        split.
        { replace (length pre + S j - f_parent d)%nat with (length pre + (S j - f_parent d))%nat by lia.
          rewrite nth_error_mid; [exact P2'|]. apply nth_error_Some. congruence. }
        split; congruence.
Qed.

Lemma flatten_parents m : describable m = true -> parents_ok (flatten m).
Proof.
  induction m as [code name id cs IH] using member_ind'. intro D.
  rewrite flatten_eq. destruct (is_array_of_compound code).
  { intros i d E I. destruct i as [|[|i]]; [lia|discriminate|discriminate]. }
  rewrite flatten_plain_eq. cbv zeta. destruct (Z.eqb_spec code tc_Struct) as [->|N].
  2: { intros i d E I. destruct i as [|[|i]]; [lia|discriminate|discriminate]. }
  assert (FP : Forall (fun c => parents_ok (flatten c)) cs).
  { destruct (describable_inv _ _ _ _ D) as [(M & W & N & F)|(M & LF & -> & ->)]; [|constructor].
    rewrite Forall_forall in *. intros c I. apply IH; [assumption|]. now apply F. }
  change (base_of tc_Struct) with 1%nat. set (d0 := FD id _ _ _ _ _).
  intros i d E I. apply (kids_parents cs d0 eq_refl FP [d0] eq_refl); auto.
Qed.
