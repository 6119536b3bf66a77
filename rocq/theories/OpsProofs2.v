(** PUT of a group. *)
From Coq Require Import String ZArith List Bool Lia.
From Verif Require Import Base BaseProofs WireModel TypeModel TextModel ValueModel MarkModel CopyModel NtModel GroupModel OpsModel OpsSpec OpsProofs.
Import ListNotations.
Local Open Scope Z_scope.

(** one write at most *)
Definition writes1 (ch : str) (P : wdata -> Prop) (h d : list act) (v : list assignment) (r : eres unit) : Prop :=
  v = [] /\ (d = [] /\ r <> EOk tt \/ exists x, d = [AWrite ch x] /\ P x).
Lemma db_put_1 w ch x (P : wdata -> Prop) : P x -> post (db_put w ch x) (writes1 ch P).
Proof. intros H. unfold db_put. apply post_call. intros h. split; [reflexivity|]. right. exists x. auto. Qed.
Lemma throw_1 ch e P : post (throw e) (writes1 ch P).
Proof. apply post_throw. intros h. split; [reflexivity|]. left. split; [reflexivity|discriminate]. Qed.
Lemma undefined_1 ch P : post undefined (writes1 ch P).
Proof. apply post_undefined. intros h. split; [reflexivity|]. left. split; [reflexivity|discriminate]. Qed.
Definition number_of fp p wt (z : Z) : Prop :=
  out_leaf fp p wt = CV (PReal z) \/ out_leaf fp p wt = CV (PInt z) \/ out_leaf fp p wt = CV (PUInt z).
Lemma number_1 fp w p wt ch (k : Z -> wdata) (P : wdata -> Prop) :
  (forall z, number_of fp p wt z -> P (k z)) -> post (bind (as_number fp p wt) (fun z => db_put w ch (k z))) (writes1 ch P).
Proof.
  intros Hk.
  apply (post_bind _ _ (fun h d v r => d = [] /\ v = [] /\ forall z, r = EOk z -> number_of fp p wt z) (fun z => writes1 ch (fun x => x = k z))).
  - unfold as_number, number_of. destruct (out_leaf fp p wt) as [[] | []];
      first [apply post_ret | apply post_throw | apply post_undefined]; intros; (split; [reflexivity|split; [reflexivity|]]); intros z0 E; inversion E; auto.
  - intros z. apply db_put_1. reflexivity.
  - intros h d v r (-> & -> & _) N. split; [reflexivity|]. left. split; [reflexivity|]. destruct r; discriminate.
  - intros h d1 v1 a d2 v2 r (-> & -> & H) (-> & D). split; [reflexivity|]. destruct D as [D | (x & -> & ->)]; [left; exact D|].
    right. exists (k a). split; [reflexivity|]. apply Hk, H. reflexivity.
Qed.
Lemma s_cast_id n z : (0 < n)%nat -> - 2 ^ (8 * Z.of_nat n - 1) <= z < 2 ^ (8 * Z.of_nat n - 1) -> s_cast n z = z.
Proof.
  intros Hn Hz. rewrite <- (s_cast_u_cast n z Hn Hz) at 2. unfold s_cast, u_cast. rewrite Z.mod_mod; [reflexivity|].
  apply Z.pow_nonzero; lia.
Qed.
Lemma as_int fp p z z' : p = PInt z \/ p = PUInt z -> - 2 ^ 63 <= z < 2 ^ 63 -> number_of fp p WInt z' -> z' = z.
Proof.
  intros Hp R H. assert (E : out_leaf fp p WInt = CV (PInt z)).
  { destruct Hp as [-> | ->]; cbn [out_leaf to_int]; do 2 f_equal; change (c_cast tc_Int64 z) with (s_cast 8 z); apply s_cast_id; [lia|exact R|lia|exact R]. }
  unfold number_of in H. rewrite E in H. destruct H as [H | [H | H]]; congruence.
Qed.
Lemma as_uint fp p z z' : p = PInt z \/ p = PUInt z -> 0 <= z < 2 ^ 64 -> number_of fp p WUInt z' -> z' = z.
Proof.
  intros Hp R H. assert (E : out_leaf fp p WUInt = CV (PUInt z)).
  { destruct Hp as [-> | ->]; cbn [out_leaf to_uint]; do 2 f_equal; change (c_cast tc_UInt64 z) with (u_cast 8 z); apply u_cast_id; exact R. }
  unfold number_of in H. rewrite E in H. destruct H as [H | [H | H]]; congruence.
Qed.
Lemma c_str_plain s : plain_text s -> c_str s = s.
Proof.
  induction s as [|x s IH]; intros N; cbn [c_str]; [reflexivity|]. destruct (Z.eqb_spec x 0) as [E | E].
  - exfalso. apply N. left. exact E.
  - f_equal. apply IH. intros I. apply N. right. exact I.
Qed.
Lemma put_scalar_1 fp w c ch v : ch_elems c = 1 -> post (put_scalar fp w c ch v) (writes1 ch (wrote c v)).
Proof.
  intros E1. unfold put_scalar. cbv zeta. destruct v as [p | |]; try apply throw_1.
  assert (Int : forall n, (0 < n <= 8)%nat -> match ch_type c with DDouble | DString => False | _ => True end ->
     (forall z, fits (ch_type c) z -> - 2 ^ (8 * Z.of_nat n - 1) <= z < 2 ^ (8 * Z.of_nat n - 1)) ->
     forall z, number_of fp p WInt z -> wrote c (SLeaf p) (WNum (ch_type c) (s_cast n z))).
  { intros n Hn Ht Hf z Hz. constructor; intros; try (exfalso; congruence); try (rewrite H0 in Ht; contradiction).
    assert (p = PInt z0 \/ p = PUInt z0) as Hp by (destruct H0 as [H0 | H0]; inversion H0; auto).
    specialize (Hf z0 H1). assert (2 ^ (8 * Z.of_nat n - 1) <= 2 ^ 63) by (apply Z.pow_le_mono_r; lia).
    rewrite (as_int fp p z0 z Hp); [|lia|exact Hz]. rewrite s_cast_id; [reflexivity|lia|exact Hf]. }
  assert (UInt : forall n, (0 < n <= 8)%nat -> match ch_type c with DDouble | DString => False | _ => True end ->
     (forall z, fits (ch_type c) z -> 0 <= z < 2 ^ (8 * Z.of_nat n)) ->
     forall z, number_of fp p WUInt z -> wrote c (SLeaf p) (WNum (ch_type c) (u_cast n z))).
  { intros n Hn Ht Hf z Hz. constructor; intros; try (exfalso; congruence); try (rewrite H0 in Ht; contradiction).
    assert (p = PInt z0 \/ p = PUInt z0) as Hp by (destruct H0 as [H0 | H0]; inversion H0; auto).
    specialize (Hf z0 H1). assert (2 ^ (8 * Z.of_nat n) <= 2 ^ 64) by (apply Z.pow_le_mono_r; lia).
    rewrite (as_uint fp p z0 z Hp); [|lia|exact Hz]. rewrite u_cast_id; [reflexivity|exact Hf]. }
  destruct (ch_type c) eqn:Et; try apply throw_1;
    try (apply number_1; first [apply (Int 1%nat) | apply (UInt 1%nat) | apply (Int 2%nat) | apply (UInt 2%nat)
         | apply (Int 4%nat) | apply (UInt 4%nat) | apply (Int 8%nat) | apply (UInt 8%nat)];
         [lia|exact I|cbn [fits]; intros z Hz; change (8 * Z.of_nat 1 - 1) with 7; change (8 * Z.of_nat 2 - 1) with 15;
           change (8 * Z.of_nat 4 - 1) with 31; change (8 * Z.of_nat 8 - 1) with 63;
           change (8 * Z.of_nat 1) with 8; change (8 * Z.of_nat 2) with 16; change (8 * Z.of_nat 4) with 32; change (8 * Z.of_nat 8) with 64; lia]).
  - (* float *) apply number_1. intros z Hz. constructor; intros; try (exfalso; congruence). rewrite Et in H1. contradiction.
  - (* double *) apply number_1. intros z Hz. constructor; intros; try (exfalso; congruence).
    + rewrite Et in H1. contradiction.
    + inversion H1; subst. unfold number_of in Hz. cbn in Hz. destruct Hz as [Hz | [Hz | Hz]]; congruence.
  - (* text *) destruct (to_text fp p) as [s|] eqn:Ep; [|apply throw_1]. apply db_put_1. constructor; intros; try (exfalso; congruence).
    + rewrite Et in H1. contradiction.
    + inversion H1; subst. cbn in Ep. inversion Ep; subst. rewrite (c_str_plain s H2), firstn_all2 by exact H3. reflexivity.
Qed.
Lemma put_long_1 fp w c ch p : ch_elems c <> 1 -> ch_type c = DChar -> is_text (SLeaf p) = true -> post (put_long_string fp w ch p) (writes1 ch (wrote c (SLeaf p))).
Proof.
  intros E1 Et Hp. unfold put_long_string. destruct (to_text fp p) as [s|] eqn:Ep; [|apply throw_1]. apply db_put_1.
  constructor; intros; try (exfalso; congruence).
  - inversion H1; subst. cbn in Ep. inversion Ep. reflexivity.
  - destruct p; try discriminate.
Qed.
Lemma map_firstn_id (n : nat) (l : list str) : Forall (fun s : str => (length s <= n)%nat) l -> map (firstn n) l = l.
Proof. intros F. induction F as [|s l H F IH]; [reflexivity|]. cbn [map]. rewrite firstn_all2 by exact H. f_equal. exact IH. Qed.
Lemma put_strings_1 w c ch v : ch_elems c <> 1 -> ch_type c = DString -> post (put_string_array w ch v) (writes1 ch (wrote c v)).
Proof.
  intros E1 Et. unfold put_string_array. destruct v as [[] | |]; try apply throw_1. destruct a; try apply throw_1.
  - apply db_put_1. constructor; intros; try (exfalso; congruence).
  - apply db_put_1. constructor; intros; try (exfalso; congruence). inversion H1; subst. rewrite map_firstn_id by exact H2. reflexivity.
Qed.
(** what is put for a mapping *)
Definition put_content (t : mtype) (cval : option src) (v : sent) (node : list str) : sdata :=
  match t with
  | MAny => sn_at v (node ++ [bs "->"])
  | MScalar => match sn_at v (node ++ [bs "value"]) with
               | SStruct => sn_at v (node ++ p2 "value" "index")
               | d => d
               end
  | MConst => match cval with Some p => SLeaf p | None => SNone end
  | _ => sn_at v node
  end.
Lemma ioc_put_post fp w t cval c ch v node :
  post (ioc_put fp w t cval c ch v node)
    (fun h d a r => a = [] /\ (d = [] \/ exists x, d = [AWrite ch x] /\ wrote c (put_content t cval v node) x) /\
                    (r = EOk tt -> (exists x, d = [AWrite ch x]) \/ match t with MMeta | MProc | MStructure => True | _ => no_array (put_content t cval v node) end)).
Proof.
  assert (W : forall x, post x (writes1 ch (wrote c (put_content t cval v node))) ->
     post x (fun h d a r => a = [] /\ (d = [] \/ exists x, d = [AWrite ch x] /\ wrote c (put_content t cval v node) x) /\
                    (r = EOk tt -> (exists x, d = [AWrite ch x]) \/ match t with MMeta | MProc | MStructure => True | _ => no_array (put_content t cval v node) end))).
  { intros x Hx. eapply post_imp; [exact Hx|]. intros h d a r (-> & [(-> & N) | (y & -> & P)]).
    - split; [reflexivity|split; [left; reflexivity|]]. intros. contradiction.
    - split; [reflexivity|split; [right; exists y; auto|]]. intros. left. exists y. reflexivity. }
  assert (B : forall t', t = t' -> match t' with MMeta | MProc | MStructure => False | _ => True end ->
     post (let x := put_content t' cval v node in
      if ch_elems c =? 1 then put_scalar fp w c ch x
      else if is_char (ch_type c) && is_text x then
        match x with SLeaf p => put_long_string fp w ch p | _ => throw FType end
      else if is_string (ch_type c) then put_string_array w ch x
      else put_array w ch x) (fun h d a r => a = [] /\ (d = [] \/ exists x, d = [AWrite ch x] /\ wrote c (put_content t cval v node) x) /\
                    (r = EOk tt -> (exists x, d = [AWrite ch x]) \/ match t with MMeta | MProc | MStructure => True | _ => no_array (put_content t cval v node) end))).
  { intros t' <- Ht. cbv zeta. remember (put_content t cval v node) as x eqn:Ex.
    destruct (Z.eqb_spec (ch_elems c) 1) as [E1 | E1]; [apply W, put_scalar_1, E1|].
    destruct (is_char (ch_type c) && is_text x) eqn:El.
    { apply andb_prop in El. destruct El as (Ec & El).
      assert (ch_type c = DChar) as Et by (destruct (ch_type c); try discriminate; reflexivity).
      destruct x as [p | |]; [apply W, put_long_1; assumption|apply W, throw_1|apply W, throw_1]. }
    destruct (is_string (ch_type c)) eqn:Es.
    { assert (ch_type c = DString) as Et by (destruct (ch_type c); try discriminate; reflexivity). apply W, put_strings_1; assumption. }
    assert (Nt : ch_type c <> DString) by (intros X; rewrite X in Es; discriminate).
    unfold put_array. destruct x as [[] | |]; try (apply W, throw_1). destruct a.
    - apply post_ret. intros h. split; [reflexivity|split; [left; reflexivity|]]. intros _. right. destruct t; try exact I; reflexivity.
    - apply W. destruct (_ =? _); [apply throw_1|]. apply db_put_1. constructor; intros; try (exfalso; congruence).
      inversion H1. reflexivity.
    - apply W. unfold put_string_array. apply db_put_1. constructor; intros; try (exfalso; congruence).
    - apply W, throw_1. }
  unfold ioc_put.
  destruct t; try (apply post_ret; intros h; split; [reflexivity|split; [left; reflexivity|right; exact I]]);
    exact (B _ eq_refl I).
Qed.

Lemma covers_iff v p : is_sent v p = true <-> covers v p.
Proof.
  assert (P : forall a b, is_prefix a b = true <-> exists rest, b = a ++ rest).
  { induction a as [|x a IH]; intros b; cbn [is_prefix].
    - split; [exists b; reflexivity|reflexivity].
    - destruct b as [|y b].
      + split; [discriminate|]. intros (rest & E). discriminate.
      + rewrite andb_true_iff, str_eqb_eq, IH. split.
        * intros (-> & rest & ->). exists rest. reflexivity.
        * intros (rest & E). inversion E; subst. split; [reflexivity|exists rest; reflexivity]. }
  unfold is_sent, covers. rewrite existsb_exists. split.
  - intros (m & I & E). apply P in E. destruct E as (rest & ->). exists m, rest. auto.
  - intros (m & rest & I & ->). exists m. split; [exact I|]. apply P. exists rest. reflexivity.
Qed.
Definition marked (v : sent) (f : cfield) : bool :=
  is_sent v (node_of f) && match cf_chan f with Some _ => true | None => false end && negb (fc_order (cf_conf f) =? no_order).
Lemma marked_iff v f : marked v f = true <-> put_to v f.
Proof.
  unfold marked, put_to, writable. rewrite !andb_true_iff, covers_iff, negb_true_iff, Z.eqb_neq.
  destruct (cf_chan f).
  - split; [intros ((A & _) & C)|intros ((A & B) & C)].
    + split; [split; [discriminate|exact C]|exact A].
    + split; [split; [exact C|reflexivity]|exact B].
  - split; [intros ((A & B) & C); discriminate|intros ((A & B) & C); contradiction].
Qed.
Definition is_proc (f : cfield) : bool := match ftype f with MProc => true | _ => false end.
(** the data is that which was sent *)
Definition data_ok (v : sent) (f : cfield) (x : wdata) : Prop :=
  forall c, cf_chan f = Some c -> carries (ftype f) -> wrote c (content v f) x.
(** what the PUT of a field adds *)
Record put_done (w : world) (v : sent) (f : cfield) (s : sclient) (h d : list act) (a : list assignment) (r : eres bool) : Prop := {
  pd_val : a = [];
  pd_acts : exists dw dp, d = dw ++ dp /\
      (dw = [] \/ exists x, dw = [AWrite (chan_name f) x] /\ marked v f = true /\ can_write w h s = true /\ data_ok v f x) /\
      (dp = [] \/ exists c p, dp = [p] /\ cf_chan f = Some c /\ processes (ch_record c) h p /\ (marked v f = true \/ is_proc f = true));
  pd_ok : forall b, r = EOk b -> b = marked v f || is_proc f /\
      (marked v f = true -> can_write w h s = true /\
         (carries (ftype f) -> (exists x, In (AWrite (chan_name f) x) d) \/ no_array (content v f))) }.
Lemma field_pre_post w s :
  post (field_pre_processing w s) (fun h d a r => d = [] /\ a = [] /\ (is_ok r -> can_write w h s = true)).
Proof.
  unfold field_pre_processing.
  apply (post_bind _ _ (fun h d a r => d = [] /\ a = [] /\ r = EOk (can_write w h s))
           (fun ok h d a r => d = [] /\ a = [] /\ (is_ok r -> ok = true))).
  - apply post_ask. intros. auto.
  - intros [].
    + apply post_ret. auto.
    + apply post_throw. intros. split; [reflexivity|split; [reflexivity|]]. intros (x & E). discriminate.
  - intros h d a r (-> & -> & ->) N. exfalso. apply N. eexists. reflexivity.
  - intros h d1 v1 ok d2 v2 r (-> & -> & E) (-> & -> & F). split; [reflexivity|split; [reflexivity|]]. inversion E; subst. exact F.
Qed.
Lemma post_proc_post w c ch force :
  post (post_processing w c ch force) (fun h d a r => a = [] /\ (d = [] \/ exists p, d = [p] /\ processes (ch_record c) h p)).
Proof.
  unfold post_processing.
  apply (post_bind _ _ (fun h d a r => d = [] /\ a = []) (fun _ h d a r => a = [] /\ (d = [] \/ exists p, d = [p] /\ processes (ch_record c) h p))).
  - apply post_ask. intros. auto.
  - intros sc. destruct (_ || _); [|apply post_ret; auto].
    apply (post_bind _ _ (fun h d a r => d = [] /\ a = []) (fun _ h d a r => a = [] /\ (d = [] \/ exists p, d = [p] /\ processes (ch_record c) h p))).
    + apply post_ask. intros. auto.
    + intros [].
      * apply post_emit. intros. split; [reflexivity|]. right. eexists. split; [reflexivity|]. right. reflexivity.
      * apply post_call. intros. split; [reflexivity|]. right. eexists. split; [reflexivity|]. left. reflexivity.
    + intros h d a r (-> & ->) _. auto.
    + intros h d1 v1 x d2 v2 r (-> & ->) H. cbn. rewrite app_nil_r in H. exact H.
  - intros h d a r (-> & ->) _. auto.
  - intros h d1 v1 x d2 v2 r (-> & ->) H. cbn. rewrite app_nil_r in H. exact H.
Qed.
Lemma content_ok v f : carries (ftype f) -> put_content (ftype f) (fc_const (cf_conf f)) v (node_of f) = content v f.
Proof. unfold content, put_content. destruct (ftype f); intros []; reflexivity. Qed.
Lemma put_field_post fp w v f s force : post (put_field fp w v f s force) (put_done w v f s).
Proof.
  unfold put_field. fold (marked v f). fold (is_proc f).
  destruct (cf_chan f) as [c|] eqn:Ec.
  2: { assert (M : marked v f = false) by (unfold marked; rewrite Ec, andb_false_r; reflexivity).
       destruct (ftype f) eqn:Et;
         try (apply post_ret; intros h; constructor;
              [reflexivity|exists [], []; auto|intros b E; inversion E; subst; rewrite M; unfold is_proc; rewrite Et; split; [reflexivity|discriminate]]).
       apply post_undefined. intros h. constructor; [reflexivity|exists [], []; auto|discriminate]. }
  (* the write *)
  assert (W : post (if marked v f
           then seq (field_pre_processing w s) (ioc_put fp w (ftype f) (fc_const (cf_conf f)) c (chan_name f) v (node_of f))
           else ret tt)
      (fun h d a r => a = [] /\
         (d = [] \/ exists x, d = [AWrite (chan_name f) x] /\ marked v f = true /\ can_write w h s = true /\ data_ok v f x) /\
         (is_ok r -> marked v f = true -> can_write w h s = true /\
            (carries (ftype f) -> (exists x, In (AWrite (chan_name f) x) d) \/ no_array (content v f))))).
  { destruct (marked v f) eqn:M.
    - eapply post_bind; [apply field_pre_post|intros a; apply ioc_put_post| |].
      + cbn. intros h d a r (-> & -> & _) N. split; [reflexivity|split; [left; reflexivity|]]. intros (x & E). destruct r; try discriminate.
      + cbn beta. intros h d1 v1 a d2 v2 r (-> & -> & C) (-> & D & O). cbn [app].
        assert (Cw : can_write w h s = true) by (apply C; eexists; reflexivity).
        split; [reflexivity|split].
        * destruct D as [-> | (x & -> & Wx)]; [left; reflexivity|right; exists x]. split; [reflexivity|split; [reflexivity|split; [exact Cw|]]].
          intros c' Ec' Hc. rewrite Ec in Ec'. inversion Ec'; subst. rewrite <- (content_ok v f Hc). exact Wx.
        * intros (u & ->) _. split; [exact Cw|]. intros Hc. destruct u. destruct (O eq_refl) as [(x & ->) | N].
          -- left. exists x. left. reflexivity.
          -- right. rewrite <- (content_ok v f Hc). destruct (ftype f); destruct Hc; exact N.
    - apply post_ret. intros h. split; [reflexivity|split; [left; reflexivity|]]. intros _ E. discriminate. }
  eapply post_bind; [exact W| | |].
  - intros u. instantiate (1 := fun _ h d a r => a = [] /\
        (d = [] \/ exists p, d = [p] /\ processes (ch_record c) h p /\ (marked v f = true \/ is_proc f = true)) /\
        (forall b, r = EOk b -> b = marked v f || is_proc f)). cbn beta.
    destruct (marked v f || is_proc f) eqn:E.
    + eapply post_bind; [apply post_proc_post|intros u1; apply (post_ret true (fun h d a r => d = [] /\ a = [] /\ r = EOk true)); auto| |].
      * cbn. intros h d a r (-> & D) N. split; [reflexivity|split].
        -- destruct D as [-> | (p & -> & Hp)]; [left; reflexivity|right; exists p]. apply orb_true_iff in E. auto.
        -- intros b Eb. destruct r; discriminate.
      * cbn. intros h d1 v1 _ d2 v2 r (-> & D) (-> & -> & ->). rewrite app_nil_r. split; [reflexivity|split].
        -- destruct D as [-> | (p & -> & Hp)]; [left; reflexivity|right; exists p]. apply orb_true_iff in E. auto.
        -- intros b Eb. inversion Eb. reflexivity.
    + apply post_ret. intros h. split; [reflexivity|split; [left; reflexivity|]]. intros b Eb. inversion Eb. reflexivity.
  - cbn beta. intros h d a r (-> & D & O) N. constructor; [reflexivity| |].
    + exists d, []. rewrite app_nil_r. auto.
    + intros b E. destruct r; try discriminate.
  - cbn beta. intros h d1 v1 u d2 v2 r (-> & D & O) (-> & D2 & O2). constructor; [reflexivity| |].
    + exists d1, d2. split; [reflexivity|split; [exact D|]].
      destruct D2 as [-> | (p & -> & Hp & Hm)]; [left; reflexivity|right]. exists c, p. split; [reflexivity|split; [exact Ec|]]. split; [|exact Hm]. destruct Hp; [left|right]; assumption.
    + intros b E. split; [apply O2; exact E|]. intros M. destruct (O ltac:(eexists; reflexivity) M) as (C & P). split; [exact C|].
      intros Hc. destruct (P Hc) as [(x & I) | N]; [left; exists x; apply in_or_app; left; exact I|right; exact N].
Qed.
