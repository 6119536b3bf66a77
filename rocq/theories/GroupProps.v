(** C82-C86: definitions of groups of records. *)
From Coq Require Import String ZArith List Bool Lia ZifyBool ZifyNat Sorting.Permutation Sorting.Sorted.
From Verif Require Import Base BaseProofs WireModel TypeModel TextModel TextSpec TextProofs ValueModel MarkModel CopyModel CopyProps NtModel
  TypeSpec TypeProofs TypeNameProofs TypeDefProofs NtSpec NtProofs NtProps GroupModel GroupSpec
  GroupProofs GroupProofs2 GroupProofs3 GroupProofs4 GroupProofs5 GroupProofs6 GroupProofs7 GroupProofs8.
Import ListNotations.
Local Open Scope Z_scope.

(** ** C82: names of fields *)
Theorem C82_spelled : forall parts path, Forall2 spells parts path -> path <> [] -> parse_name (dotted parts) = Some path.
Proof. exact spells_name. Qed.
Theorem C82_printed : forall path, Forall plain_comp path -> path <> [] -> parse_name (print_name path) = Some path.
Proof. exact print_parse. Qed.
Theorem C82_refused : forall s p, s <> [] -> piece 46 s p ->
  (p = [] \/ last p 0 = 93 /\ ~ In 91 p \/
   exists n x r, p = n ++ 91 :: x :: r /\ ~ In 91 (x :: r) /\ last p 0 = 93 /\ is_space x = false /\ ~ 48 <= x <= 57 /\ x <> 43 /\ x <> 45 /\ x <> 93) ->
  parse_name s = None.
Proof.
  intros s p N P H. eapply name_refused; eauto. destruct H as [-> |[(L & I)|(n & x & r & -> & I & L & SP & D & A & B & C)]].
  - reflexivity.
  - now apply part_unmatched.
  - apply part_bad; auto; [unfold GroupModel.is_digit; lia|]. rewrite <- L. symmetry. clear.
    induction n as [|a n IH]; [reflexivity|]. cbn [app]. rewrite <- IH. destruct n; reflexivity.
Qed.
(** A subscript too large for 32 bits is taken modulo 2^32; 2^32-1 and -1 mean none. *)
Theorem C82_index_refuted :
  parse_name (bs "a[4294967297]") = Some [{| p_name := bs "a"; p_index := 1 |}] /\
  parse_name (bs "a[-1]") = Some [{| p_name := bs "a"; p_index := no_index |}] /\
  parse_name (bs "a[4294967295]") = Some [{| p_name := bs "a"; p_index := no_index |}].
Proof. vm_compute. auto. Qed.
(** Malformed names are accepted: a trailing dot, an empty subscript, text after the
    subscript. *)
Theorem C82_malformed_refuted :
  parse_name (bs "a.") = Some [{| p_name := bs "a"; p_index := no_index |}] /\
  parse_name (bs "a[]") = Some [{| p_name := bs "a"; p_index := 0 |}] /\
  parse_name (bs "a[1]2]") = Some [{| p_name := bs "a"; p_index := 1 |}].
Proof. vm_compute. auto. Qed.
Example C82_ex : Forall2 spells [bs "a"; bs "b[07]"] [{| p_name := bs "a"; p_index := no_index |}; {| p_name := bs "b"; p_index := 7 |}] /\
  Forall plain_comp [{| p_name := bs "a"; p_index := no_index |}; {| p_name := bs "b"; p_index := 7 |}] /\
  piece 46 (bs "a..b") [].
Proof.
  split; [|split].
  - constructor; [apply sp_plain; [discriminate|vm_compute; intuition discriminate|vm_compute; discriminate]|]. constructor; [|constructor].
    apply (sp_indexed (bs "b") (bs "07") 7); [vm_compute; intuition discriminate| |reflexivity].
    apply (num_more 10 [48] 0 55 7); [apply num_one|]; vm_compute; intuition (try discriminate; auto).
  - constructor; [|constructor; [|constructor]]; (split; [vm_compute; intuition discriminate|]).
    + left. split; [reflexivity|]. split; [discriminate|vm_compute; discriminate].
    + right. vm_compute. split; [discriminate|reflexivity].
  - split; [intros []|]. exists (bs "a."), (bs ".b"). split; [reflexivity|]. split; [right; exists (bs "a"); reflexivity|right; exists (bs "b"); reflexivity].
Qed.

(** ** C83: options *)
Lemma fine_docs fp records files : docs_fine fp records files ->
  Forall (fun x => doc_ok fp (fst x ++ [46]) (snd x)) records /\ Forall (doc_ok fp []) files.
Proof.
  intros (K1 & K2 & S). unfold all_settings in S. apply Forall_app in S as (S1 & S2). split; apply Forall_forall; intros d I; rewrite Forall_forall in *.
  - split; [auto|]. apply Forall_forall. intros s J. apply S1. apply in_flat_map. eauto.
  - split; [auto|]. apply Forall_forall. intros s J. apply S2. apply in_flat_map. eauto.
Qed.
Lemma loaded fp records files : docs_fine fp records files ->
  exists cs1 cs, load_records fp (as_texts records) [] = (cs1, JOk tt) /\ load_files fp (file_texts files) cs1 = (cs, JOk tt) /\ told fp (all_settings records files) cs.
Proof.
  intro D. destruct (fine_docs _ _ _ D) as (D1 & D2). eexists. eexists. split; [exact (records_step fp records [] D1)|]. split; [exact (files_step fp files _ D2)|].
  rewrite <- fold_left_app. apply (told_all fp (all_settings records files) [] []); [apply D|apply told_nil].
Qed.
Theorem C83_settings : forall fp records files, docs_fine fp records files ->
  exists cs1 cs, load_records fp (as_texts records) [] = (cs1, JOk tt) /\ load_files fp (file_texts files) cs1 = (cs, JOk tt) /\
  (forall g, In g (map fst cs) <-> exists s, In s (all_settings records files) /\ st_group s = g) /\
  NoDup (map fst cs) /\
  forall g c, In (g, c) cs -> told_group fp (all_settings records files) g c /\ NoDup (map fst (gc_fields c)).
Proof.
  intros fp records files D. destruct (loaded _ _ _ D) as (cs1 & cs & E1 & E2 & S & K & G). exists cs1, cs.
  split; [exact E1|]. split; [exact E2|]. split; [exact K|]. split; [now apply (sorted_NoDup cs)|].
  intros g c I. apply (map_get_In cs _ _ (sorted_NoDup _ S)) in I. destruct (G _ _ I) as (A & B). split; [exact B|now apply (sorted_NoDup (gc_fields c))].
Qed.
(** the list kept by dbLoadGroup() *)
Theorem C83_files : forall open fname macros gCF, fname <> [] -> fname <> bs "*" -> fname <> bs "-*" ->
  (forall rest, fname = 45 :: rest -> snd (load_group open fname macros gCF) = false /\
     forall e, In e (fst (load_group open fname macros gCF)) <-> In e gCF /\ fst e <> (rest, macros)) /\
  (hd 0 fname <> 45 -> open fname macros = None -> load_group open fname macros gCF = (gCF, true)) /\
  (forall t, hd 0 fname <> 45 -> open fname macros = Some t -> snd (load_group open fname macros gCF) = false /\
     (forall e, In e (fst (load_group open fname macros gCF)) <-> e = (fname, macros, t) \/ In e gCF /\ fst e <> (fname, macros)) /\
     last (fst (load_group open fname macros gCF)) ([], [], ([], false)) = (fname, macros, t)).
Proof.
  intros open fname macros gCF NE NS NM.
  assert (FI : forall n e, In e (filter (fun x : str * str * jtext => negb (str_eqb (fst (fst x)) n && str_eqb (snd (fst x)) macros)) gCF) <-> In e gCF /\ fst e <> (n, macros)).
  { intros n [[a b] t]. rewrite filter_In. cbn [fst snd]. split; intros (I & H); (split; [exact I|]).
    - intro X. inversion X; subst. rewrite !str_eqb_refl in H. discriminate.
    - destruct (str_eqb a n) eqn:A; [|reflexivity]. destruct (str_eqb b macros) eqn:B; [|reflexivity]. apply str_eqb_eq in A, B. subst. congruence. }
  destruct fname as [|c rest]; [congruence|]. cbn [hd]. split; [|split].
  - intros r E. inversion E; subst. unfold load_group. cbn [Z.eqb Pos.eqb]. destruct (str_eqb r (bs "*")) eqn:X.
    + exfalso. apply str_eqb_eq in X. apply NM. rewrite X. reflexivity.
    + cbn [fst snd]. split; [reflexivity|]. apply FI.
  - intros N O. unfold load_group. apply Z.eqb_neq in N. rewrite N. destruct (str_eqb (c :: rest) (bs "*")) eqn:X; [apply str_eqb_eq in X; congruence|]. now rewrite O.
  - intros t N O. unfold load_group. apply Z.eqb_neq in N. rewrite N. destruct (str_eqb (c :: rest) (bs "*")) eqn:X; [apply str_eqb_eq in X; congruence|]. rewrite O. cbn [fst snd].
    split; [reflexivity|]. split; [|apply last_last]. intro e. rewrite in_app_iff, FI. cbn [In]. intuition congruence.
Qed.
Theorem C83_files_clear : forall open macros gCF, fst (load_group open (bs "*") macros gCF) = [] /\ fst (load_group open (bs "-*") macros gCF) = [].
Proof. intros. split; reflexivity. Qed.
(** A value of the wrong kind is not reported: reading {"g":5} succeeds. *)
Theorem C83_unreported_refuted : forall fp record,
  parse_config fp record ([EStart; EKey (bs "g"); EVal (Some (PInt 5)); EEnd], true) [] = ([], JOk tt).
Proof. intros fp record. destruct record; reflexivity. Qed.
(** {"g":{"f":{"+putorder":"abc"}}} ends the process by a failed assert. *)
Theorem C83_abort_refuted : forall fp record, snd (parse_config fp record
  ([EStart; EKey (bs "g"); EStart; EKey (bs "f"); EStart; EKey (bs "+putorder"); EVal (Some (PStr (bs "abc"))); EEnd; EEnd; EEnd], true) []) = JAbort.
Proof. intros fp record. destruct record; vm_compute; reflexivity. Qed.
(** So does an option with an empty array as value, {"g":{"f":{"+type":[]}}}. *)
Theorem C83_array_refuted : forall fp record, snd (parse_config fp record
  ([EStart; EKey (bs "g"); EStart; EKey (bs "f"); EStart; EKey (bs "+type"); EEnd; EEnd; EEnd], true) []) = JAbort.
Proof. intros fp record. destruct record; vm_compute; reflexivity. Qed.
(** The iocsh command dbLoadGroup forgets all files: no group is made from them. *)
Theorem C83_command_refuted : forall fp open fname macros gCF, fst (load_group_cmd fp open fname macros gCF) = [].
Proof. intros. unfold load_group_cmd. destruct (load_group _ _ _ _). reflexivity. Qed.

(** ** C84: validation, order, triggers *)
Theorem C84_valid : forall cs name g', In (name, g') (validate_groups cs) <-> exists g, In (name, g) cs /\
  (forall x, In x (gc_fields g) -> needs_record (fc_type (snd x)) -> fc_channel (snd x) <> []) /\
  g' = {| gc_atomic := gc_atomic g; gc_atomic_set := gc_atomic_set g; gc_id := gc_id g; gc_fields := map (fun x => (fst x, effective (snd x))) (gc_fields g) |}.
Proof.
  assert (EF : forall f, cleaned f = effective f) by (intros [a b c [] e h]; reflexivity).
  assert (V : forall l, forallb (fun x : str * fconf => negb (needs_channel (fc_type (snd x))) || negb (is_nil (fc_channel (snd x)))) l = true <->
    (forall x, In x l -> needs_record (fc_type (snd x)) -> fc_channel (snd x) <> [])).
  { intro l. rewrite forallb_forall. split; intros H x I.
    - intros NR. apply needs_ok in NR. specialize (H x I). rewrite NR in H. cbn in H. destruct (fc_channel (snd x)); [discriminate|congruence].
    - specialize (H x I). destruct (needs_channel (fc_type (snd x))) eqn:NC; [|reflexivity]. apply needs_ok in NC. specialize (H NC). cbn. destruct (fc_channel (snd x)); [congruence|reflexivity]. }
  induction cs as [|[n g] cs IH]; intros name g'; cbn [validate_groups In].
  - split; [intros []|intros (g & [] & _)].
  - rewrite validate_fields_spec. destruct (forallb _ (gc_fields g)) eqn:F.
    + rewrite (map_ext _ (fun x => (fst x, effective (snd x)))) by (intro; now rewrite EF). cbn [In]. rewrite IH. split.
      * intros [E|(h & I & H)]; [inversion E; subst; exists g; split; [auto|]; split; [now apply V|reflexivity]|exists h; split; [auto|exact H]].
      * intros (h & [E|I] & H1 & H2); [inversion E; subst; now left|right; eauto].
    + rewrite IH. split; intros (h & I & H1 & H2); [eauto|]. destruct I as [E|I]; [|eauto]. inversion E; subst. apply V in H1. congruence.
Qed.
Lemma ordered g : StronglySorted (fun a b => str_ltb a b = true) (map fst (gc_fields g)) -> in_order g (fields_of g).
Proof.
  intro S. split; [|now apply fields_sorted]. intro x. split.
  - intro I. apply (Permutation_in _ (fields_perm g)) in I. apply filter_In in I as (I & K). apply keep_kept in K. auto.
  - intros (I & K). apply keep_kept in K. apply (Permutation_in _ (Permutation_sym (fields_perm g))). apply filter_In. auto.
Qed.
Theorem C84_order : forall name g, StronglySorted (fun a b => str_ltb a b = true) (map fst (gc_fields g)) ->
  in_order g (map (fun d => (fd_name d, fd_conf d)) (gd_fields (define_group name g))).
Proof. intros name g S. change (fun d => (fd_name d, fd_conf d)) with pair_of. rewrite defined_pairs. now apply ordered. Qed.
Theorem C84_triggers : forall name g d t, StronglySorted (fun a b => str_ltb a b = true) (map fst (gc_fields g)) ->
  In d (gd_fields (define_group name g)) ->
  let xs := map (fun d => (fd_name d, fd_conf d)) (gd_fields (define_group name g)) in
  (In t (fd_triggers d) <-> exists h, In h xs /\ fst h = t /\ triggers xs (fd_name d, fd_conf d) h).
Proof.
  intros name g d t S I. cbv zeta. change (fun d => (fd_name d, fd_conf d)) with pair_of. rewrite defined_pairs. now apply (defined_triggers name).
Qed.
Definition ex_field (ch tr : string) (t : mtype) : fconf :=
  {| fc_channel := bs ch; fc_trigger := bs tr; fc_id := []; fc_type := t; fc_order := no_order; fc_const := None |}.
Definition ex_group (l : list (string * fconf)) : gconf :=
  {| gc_atomic := true; gc_atomic_set := false; gc_id := bs "ex:id"; gc_fields := map (fun x => (bs (fst x), snd x)) l |}.
(** The list "A, B" as in the documentation names only A: the blank is part of the
    second name. *)
Theorem C84_blank_refuted : map (fun d => (fd_name d, fd_triggers d))
  (gd_fields (define_group (bs "g") (ex_group [("A", ex_field "r1" "A, B" MPlain); ("B", ex_field "r2" "" MPlain)]%string))) =
  [(bs "A", [bs "A"]); (bs "B", [])].
Proof. vm_compute. reflexivity. Qed.
Example C84_ex : map (fun d => (fd_name d, fd_triggers d))
  (gd_fields (define_group (bs "g") (ex_group [("A", ex_field "r1" "*" MPlain); ("B", ex_field "r2" "A,B" MPlain); ("C", ex_field "" "B" MStructure)]%string))) =
  [(bs "A", [bs "A"; bs "B"]); (bs "B", [bs "A"; bs "B"]); (bs "C", [bs "B"])].
Proof. vm_compute. reflexivity. Qed.

(** ** C85: creation *)
Theorem C85_created : forall db name g, sound_group db g ->
  exists grp xs, create_group db (define_group name g) = JOk grp /\ in_order g xs /\
  g_name grp = name /\ g_atomic grp = (if gc_atomic_set g then gc_atomic g else true) /\ Forall2 (made db) xs (g_fields grp) /\
  forall i x f, nth_error xs i = Some x -> nth_error (g_fields grp) i = Some f ->
    if is_nil (fc_channel (snd x)) then cf_trig f = []
    else forall j, In j (cf_trig f) <-> exists h, nth_error xs j = Some h /\ triggers xs x h.
Proof.
  intros db name g (S & F). destruct (group_ok db name g S) as (fs & E & M & T); [now apply Forall_forall|].
  eexists. exists (fields_of g). split; [exact E|]. split; [now apply ordered|]. cbn [g_name g_atomic g_fields].
  split; [reflexivity|]. split; [destruct (gc_atomic_set g); reflexivity|]. split; [exact M|exact T].
Qed.
Lemma create_all db l : (forall x, In x l -> exists grp, create_group db x = JOk grp /\ g_name grp = gd_name x) ->
  exists groups, create_groups db l = JOk groups /\ map g_name groups = map gd_name l.
Proof.
  induction l as [|x l IH]; intro H; [exists []; auto|]. destruct (H x (or_introl eq_refl)) as (grp & E & N). destruct IH as (groups & E2 & N2); [intros y I; apply H; now right|].
  exists (grp :: groups). cbn [create_groups map]. rewrite E, E2. cbn [jmap]. split; [reflexivity|congruence].
Qed.
Lemma told_field_fun fp l g f a b : told_field fp l g f a -> told_field fp l g f b -> a = b.
Proof.
  intros (A1 & A2 & A3 & A4 & A5 & A6) (B1 & B2 & B3 & B4 & B5 & B6). destruct a as [a1 a2 a3 a4 a5 a6], b as [b1 b2 b3 b4 b5 b6]. cbn [fc_channel fc_trigger fc_id fc_type fc_order fc_const] in *.
  assert (T : a4 = b4).
  { clear -A6 B6. destruct (last_such (fun s => field_is g f (bs "+type") s && known_type fp s) l) as [s|]; [|congruence].
    revert A6 B6. generalize (text_of fp s). intros t X Y. apply (map_get_In mapping_types) in X; [|now apply no_dup_b_ok]. apply (map_get_In mapping_types) in Y; [|now apply no_dup_b_ok]. congruence. }
  congruence.
Qed.
Theorem C85_groups : forall fp is_record db records files fs, docs_fine fp records files -> map snd fs = file_texts files ->
  (forall s f c, In s (all_settings records files) -> st_field s = Some f -> told_field fp (all_settings records files) (st_group s) f c ->
     kept (f, c) -> makeable db (f, effective c) /\ worded (f, c)) ->
  exists groups, process_groups fp is_record db (as_texts records) fs = JOk groups /\
  forall name, claims groups name = true <-> usable_group fp is_record (all_settings records files) name.
Proof.
  intros fp is_record db records files fs D FS SND. destruct (loaded _ _ _ D) as (cs1 & cs & E1 & E2 & S & K & G).
  set (l := all_settings records files) in *. unfold process_groups. rewrite E1, FS, E2.
  assert (GF : forall g c, In (g, c) cs -> told_group fp l g c /\ sorted (gc_fields c)).
  { intros g c I. apply (map_get_In cs _ _ (sorted_NoDup _ S)) in I. destruct (G _ _ I). auto. }
  destruct (create_all db (define_groups is_record (validate_groups cs))) as (groups & E & N).
  - intros d I. unfold define_groups in I. apply in_map_iff in I as ((name & g') & <- & I). apply filter_In in I as (I & R). cbn [fst snd] in *.
    apply C84_valid in I as (g & I & V & ->). destruct (GF _ _ I) as ((T1 & T2 & T3 & T4) & SG).
    destruct (C85_created db name {| gc_atomic := gc_atomic g; gc_atomic_set := gc_atomic_set g; gc_id := gc_id g; gc_fields := map (fun x => (fst x, effective (snd x))) (gc_fields g) |}) as (grp & xs & E & _ & EN & _).
    + split; [cbn [gc_fields]; rewrite map_map; exact SG|]. cbn [gc_fields]. intros x J KX. apply in_map_iff in J as ((f & c) & <- & J). cbn [fst snd] in *.
      destruct (T3 f) as (T3' & _). destruct T3' as (s & IS & GS & FS'); [apply in_map_iff; exists (f, c); auto|].
      assert (ET : fc_type (effective c) = fc_type c) by (destruct c as [a b h [] e i]; reflexivity).
      destruct (SND s f c IS FS') as (M & W); [rewrite GS; now apply T4|unfold kept in *; cbn [fst snd] in *; rewrite ET in KX; exact KX|].
      split; [exact M|]. unfold worded in *. cbn [fst snd] in *. rewrite ET. exact W.
    + exists grp. auto.
  - exists groups. split; [exact E|]. intro name. unfold claims. rewrite existsb_exists.
    assert (A : (exists x, In x groups /\ str_eqb (g_name x) name = true) <-> In name (map g_name groups)).
    { rewrite in_map_iff. split; intros (x & A & B); exists x; [apply str_eqb_eq in B; auto|subst; split; [assumption|apply str_eqb_refl]]. }
    rewrite A, N. unfold define_groups. rewrite map_map. cbn [gd_name define_group]. rewrite in_map_iff. split.
    + intros ((n & g') & <- & I). apply filter_In in I as (I & R). cbn [fst snd] in *. apply C84_valid in I as (g & I & V & ->).
      destruct (GF _ _ I) as ((T1 & T2 & T3 & T4) & SG). split; [now destruct (is_record n)|]. split; [apply K; apply in_map_iff; exists (n, g); auto|].
      intros s f c IS GS FS' TF NR. assert (J : In f (map fst (gc_fields g))) by (apply T3; eauto). apply in_map_iff in J as ((f' & c') & EF & J). cbn in EF. subst f'.
      rewrite (told_field_fun _ _ _ _ _ _ TF (T4 _ _ J)) in *. exact (V _ J NR).
    + intros (R & EX & V). apply K in EX. apply in_map_iff in EX as ((n & g) & EN & I). cbn in EN. subst n.
      destruct (GF _ _ I) as ((T1 & T2 & T3 & T4) & SG).
      exists (name, {| gc_atomic := gc_atomic g; gc_atomic_set := gc_atomic_set g; gc_id := gc_id g; gc_fields := map (fun x => (fst x, effective (snd x))) (gc_fields g) |}).
      split; [reflexivity|]. apply filter_In. cbn [fst]. rewrite R. split; [|reflexivity]. apply C84_valid. exists g. split; [exact I|]. split; [|reflexivity].
      intros (f & c) J NR. cbn [snd] in *. destruct (T3 f) as (T3' & _). destruct T3' as (s & IS & GS & FS'); [apply in_map_iff; exists (f, c); auto|].
      eapply V; eauto.
Qed.
Definition ex_db (n : str) : option chan :=
  if str_eqb n (bs "r1") then Some {| ch_record := 0; ch_type := DDouble; ch_elems := 1; ch_link := false; ch_text := false |}
  else if str_eqb n (bs "r2") then Some {| ch_record := 1; ch_type := DEnum; ch_elems := 1; ch_link := false; ch_text := false |}
  else None.
(** A group whose creation failed is still served, without a type. *)
Theorem C85_failed_refuted : exists grp,
  create_groups ex_db [define_group (bs "g") (ex_group [("A", ex_field "nowhere" "A" MPlain); ("B", ex_field "r1" "" MPlain)]%string)] = JOk [grp] /\
  g_type grp = None /\ claims [grp] (bs "g") = true.
Proof. eexists. split; [vm_compute; reflexivity|]. split; reflexivity. Qed.
(** When a field cannot be made, a trigger naming it is out of range: undefined behaviour. *)
Theorem C85_range_refuted :
  create_group ex_db (define_group (bs "g") (ex_group [("A", ex_field "r1" "*" MPlain); ("B", ex_field "nowhere" "" MPlain)]%string)) = JUB.
Proof. vm_compute. reflexivity. Qed.
(** A field named "[3]" ends the process by a failed assert. *)
Theorem C85_subscript_refuted :
  create_group ex_db (define_group (bs "g") (ex_group [("[3]", ex_field "r1" "" MPlain)]%string)) = JAbort.
Proof. vm_compute. reflexivity. Qed.

(** ** C86: types *)
Lemma made_parts db name g grp m x : sound_group db g -> create_group db (define_group name g) = JOk grp -> g_type grp = Some m ->
  In x (gc_fields g) -> kept x ->
  exists xs fs f xs' fs' ms, fields_of g = xs ++ x :: xs' /\ Forall2 (made db) xs fs /\ made db x f /\ Forall2 (made db) xs' fs' /\
    all_members (fs ++ f :: fs') = OK ms /\ typedef_append (Mem tc_Struct [] (gc_id g) []) (record_member :: ms) = OK m /\
    (forall y, In y (xs ++ xs') -> In y (gc_fields g) /\ kept y /\ y <> x).
Proof.
  intros (S & F) C T I K. destruct (group_ok db name g S) as (fs & E & M & _); [now apply Forall_forall|]. rewrite C in E. inversion E; subst grp. cbn [g_type] in T.
  destruct (all_members fs) as [ms| |] eqn:AM; try discriminate. destruct (typedef_append _ _) as [m'| |] eqn:TA; try discriminate. inversion T; subst m'.
  destruct (ordered g S) as (O & _). assert (IX : In x (fields_of g)) by (apply O; auto). apply in_split in IX as (xs & xs' & EX). rewrite EX in M.
  apply Forall2_app_inv_l in M as (f1 & f2 & M1 & M2 & ->). inversion M2 as [|? f ? fs' MX M3]; subst.
  exists xs, f1, f, xs', fs', ms. split; [exact EX|]. do 5 (split; [assumption|]). intros y IY.
  assert (ND : NoDup (xs ++ x :: xs')).
  { rewrite <- EX. unfold fields_of. pose proof (names_nodup g S) as N. 
    apply (NoDup_map_inv fst). rewrite map_map. exact N. }
  assert (IO : In y (fields_of g)) by (rewrite EX; apply in_app_iff in IY; apply in_app_iff; cbn; tauto).
  apply O in IO as (I1 & I2). split; [exact I1|]. split; [exact I2|]. intro X. subst y. apply NoDup_remove_2 in ND. tauto.
Qed.
Theorem C86_group : forall db name g grp m, sound_group db g -> create_group db (define_group name g) = JOk grp -> g_type grp = Some m ->
  m_code m = tc_Struct /\ m_id m = gc_id g.
Proof.
  intros db name g grp m (S & F) C T. destruct (group_ok db name g S) as (fs & E & M & _); [now apply Forall_forall|]. rewrite C in E. inversion E; subst grp. cbn [g_type] in T.
  destruct (all_members fs) as [ms| |] eqn:AM; try discriminate. destruct (typedef_append _ _) as [m'| |] eqn:TA; try discriminate. inversion T; subst m'.
  apply template_each in TA. tauto.
Qed.
(** The options of a group: unless a field uses that name, record._options.queueSize is an
    Int32 and record._options.atomic a Bool. *)
Theorem C86_options : forall db name g grp m q, sound_group db g -> (forall y, In y (gc_fields g) -> tidy y) ->
  In q [bs "queueSize"; bs "atomic"] ->
  (forall y path, In y (gc_fields g) -> kept y -> named (fst y) path -> ~ meets (fc_type (snd y)) (names_of path) [bs "record"; bs "_options"; q]) ->
  create_group db (define_group name g) = JOk grp -> g_type grp = Some m ->
  exists a, member_at (m_children m) [bs "record"; bs "_options"; q] = Some a /\
    m_code a = (if list_eq_dec Z.eq_dec q (bs "atomic") then tc_Bool else tc_Int32) /\ m_children a = [].
Proof.
  intros db name g grp m q (S & F) TD Q AL C T. destruct (group_ok db name g S) as (fs & E & M & _); [now apply Forall_forall|]. rewrite C in E. inversion E; subst grp. cbn [g_type] in T.
  destruct (all_members fs) as [ms| |] eqn:AM; try discriminate. destruct (typedef_append _ _) as [m'| |] eqn:TA; try discriminate. inversion T; subst m'.
  apply template_each in TA as (TA & _). destruct (ordered g S) as (O & _).
  assert (N : ~ has_path ms [bs "record"; bs "_options"; q]).
  { eapply (others_apart db (fields_of g) fs ms); [exact M| | |exact AM].
    - apply Forall_forall. intros y J. apply TD. now apply O.
    - apply Forall_forall. intros y J path NP. apply O in J as (J1 & J2). eauto. }
  assert (NL : neat_list [record_member]).
  { split; [repeat constructor; intros []|]. constructor; [|constructor]. exact record_neat. }
  assert (HP : has_path [record_member] [bs "record"; bs "_options"; q]).
  { apply (hp_below [record_member] record_member); [left; reflexivity|].
    apply (hp_below (m_children record_member) (MS tc_Struct "_options"%string ""%string [NtModel.M tc_Int32 "queueSize"%string; NtModel.M tc_Bool "atomic"%string])); [left; reflexivity|].
    destruct Q as [<- | [<- | []]]; [apply (hp_here _ (NtModel.M tc_Int32 "queueSize"%string)); left; reflexivity|apply (hp_here _ (NtModel.M tc_Bool "atomic"%string)); right; left; reflexivity]. }
  change (record_member :: ms) with ([] ++ [record_member] ++ ms) in TA.
  rewrite (block_at [] [record_member] ms (m_children m) _ TA NL HP); [| |exact N].
  2: { intros X. inversion X; contradiction. }
  destruct Q as [<- | [<- | []]]; eexists; (split; [vm_compute; reflexivity|split; vm_compute; reflexivity]).
Qed.
Theorem C86_member : forall db name g grp m x path, sound_group db g -> (forall y, In y (gc_fields g) -> tidy y) ->
  create_group db (define_group name g) = JOk grp -> g_type grp = Some m ->
  In x (gc_fields g) -> kept x -> named (fst x) path -> In (fc_type (snd x)) [MScalar; MPlain; MAny; MConst] ->
  alone (gc_fields g) x (names_of path) ->
  exists a, member_at (m_children m) (names_of path) = Some a /\ member_of db x a.
Proof.
  intros db name g grp m x path SG TD C T I K N TY (A1 & A2 & A3).
  destruct (made_parts _ _ _ _ _ _ SG C T I K) as (xs & fs & f & xs' & fs' & ms & EX & M1 & MX & M2 & AM & TA & OT).
  assert (P : cf_path f = path) by (eapply named_fun; [apply MX|exact N]). destruct SG as (_ & SG). destruct (SG x I K) as (_ & W).
  destruct (proj1 (all_members_app fs (f :: fs') ms) AM) as (m1 & m2 & E1 & E2 & _). change (f :: fs') with ([f] ++ fs') in E2. apply all_members_app in E2 as (mf & m4 & E3 & E4 & _). rewrite all_members_one in E3.
  destruct (leaf_members db x f mf MX W TY E3) as (NL & HP & a & MA & MO & _). rewrite P in *. exists a. split; [|exact MO].
  rewrite <- MA. eapply (type_at db (gc_id g) xs fs x f xs' fs' ms m); eauto.
  - apply Forall_forall. intros y J. apply TD. now apply OT.
  - split; [exact A1|]. split; [exact A2|]. apply Forall_forall. intros y J q Q. destruct (OT y J) as (J1 & J2 & J3). eapply A3; eauto.
Qed.
Theorem C86_meta : forall db name g grp m x path part, sound_group db g -> (forall y, In y (gc_fields g) -> tidy y) ->
  create_group db (define_group name g) = JOk grp -> g_type grp = Some m ->
  In x (gc_fields g) -> named (fst x) path -> fc_type (snd x) = MMeta ->
  In part [bs "alarm"; bs "timeStamp"] -> alone (gc_fields g) x (names_of path ++ [part]) ->
  exists a, member_at (m_children m) (names_of path ++ [part]) = Some a /\ m_code a = tc_Struct /\
    (part = bs "alarm" -> m_id a = bs "alarm_t" /\ fields_below [] a = [F "severity" tc_Int32; F "status" tc_Int32; F "message" tc_String]) /\
    (part = bs "timeStamp" -> m_id a = bs "time_t" /\ fields_below [] a = [F "secondsPastEpoch" tc_Int64; F "nanoseconds" tc_Int32; F "userTag" tc_Int32]).
Proof.
  intros db name g grp m x path part SG TD C T I N TY IP (A1 & A2 & A3). assert (K : kept x) by (now right).
  destruct (made_parts _ _ _ _ _ _ SG C T I K) as (xs & fs & f & xs' & fs' & ms & EX & M1 & MX & M2 & AM & TA & OT).
  assert (P : cf_path f = path) by (eapply named_fun; [apply MX|exact N]).
  destruct (proj1 (all_members_app fs (f :: fs') ms) AM) as (m1 & m2 & E1 & E2 & _). change (f :: fs') with ([f] ++ fs') in E2. apply all_members_app in E2 as (mf & m4 & E3 & E4 & _). rewrite all_members_one in E3.
  assert (Q : exists a, member_at meta_members [part] = Some a /\ m_code a = tc_Struct /\
    (part = bs "alarm" -> m_id a = bs "alarm_t" /\ fields_below [] a = [F "severity" tc_Int32; F "status" tc_Int32; F "message" tc_String]) /\
    (part = bs "timeStamp" -> m_id a = bs "time_t" /\ fields_below [] a = [F "secondsPastEpoch" tc_Int64; F "nanoseconds" tc_Int32; F "userTag" tc_Int32])).
  { destruct IP as [<-|[<-|[]]]; eexists; (split; [vm_compute; reflexivity|]); (split; [reflexivity|]); split; intro X; try discriminate X; split; vm_compute; reflexivity. }
  destruct Q as (a & QA & Q). exists a. split; [|exact Q].
  destruct (meta_part db x f mf [part] a MX (TD x I) TY E3) as (NL & HP & MA); [discriminate|exact QA|]. rewrite P in *. rewrite <- MA.
  eapply (type_at db (gc_id g) xs fs x f xs' fs' ms m); eauto.
  - apply Forall_forall. intros y J. apply TD. now apply OT.
  - split; [exact A1|]. split; [exact A2|]. apply Forall_forall. intros y J q R. destruct (OT y J) as (J1 & J2 & J3). eapply A3; eauto.
Qed.
Theorem C86_structure : forall db name g grp m x c, sound_group db g -> (forall y, In y (gc_fields g) -> tidy y) ->
  create_group db (define_group name g) = JOk grp -> g_type grp = Some m ->
  In x (gc_fields g) -> kept x -> named (fst x) [c] -> fc_type (snd x) = MStructure ->
  (forall y path, In y (gc_fields g) -> y <> x -> kept y -> named (fst y) path ->
     names_of path <> [p_name c] /\ (path = [] -> p_name c <> bs "alarm" /\ p_name c <> bs "timeStamp")) ->
  exists s, member_at (m_children m) [p_name c] = Some s /\ m_id s = fc_id (snd x).
Proof.
  intros db name g grp m x c SG TD C T I K N TY AP.
  destruct (made_parts _ _ _ _ _ _ SG C T I K) as (xs & fs & f & xs' & fs' & ms & EX & M1 & MX & M2 & AM & TA & OT).
  assert (P : cf_path f = [c]) by (eapply named_fun; [apply MX|exact N]).
  eapply (structure_id db (gc_id g) xs fs x f xs' fs' ms m); eauto; [now rewrite P|].
  apply Forall_forall. intros y J. destruct (OT y J) as (J1 & J2 & J3). destruct SG as (_ & SG). destruct (SG y J1 J2) as (_ & W). split; [auto|]. split; [exact W|].
  intros path NP. destruct (AP y path J1 J3 J2 NP) as (B1 & B2). auto.
Qed.
(** A structure field with a nested name "a.b" gives the id to a member "a.a". *)
Theorem C86_nested_refuted : exists grp m, create_group ex_db (define_group (bs "g") (ex_group [("a.b", {| fc_channel := []; fc_trigger := []; fc_id := bs "my:id"; fc_type := MStructure; fc_order := no_order; fc_const := None |})]%string)) = JOk grp /\
  g_type grp = Some m /\ member_at (m_children m) [bs "a"; bs "b"] = None /\ option_map m_id (member_at (m_children m) [bs "a"; bs "a"]) = Some (bs "my:id").
Proof. eexists. eexists. split; [vm_compute; reflexivity|]. vm_compute. auto. Qed.

(** Cases meeting the hypotheses. *)
Definition ex_doc : jdoc :=
  [(bs "g", [JOption (bs "+id") (Some (PStr (bs "ex:id"))); JField (bs "a.v") [(bs "+type", Some (PStr (bs "plain"))); (bs "+channel", Some (PStr (bs "r1")))];
             JField (bs "e") [(bs "+channel", Some (PStr (bs "r2"))); (bs "+trigger", Some (PStr (bs "a.v,e"))); (bs "+putorder", Some (PInt 3))]])].
Definition ex_docs : list jdoc := [ex_doc; [(bs "g", [JField (bs "") [(bs "+type", Some (PStr (bs "meta"))); (bs "+channel", Some (PStr (bs "r1")))];
                                                      JField (bs "s") [(bs "+type", Some (PStr (bs "structure"))); (bs "+id", Some (PStr (bs "s:id")))]])]].
Example C83_ex : docs_fine no_fpu [] ex_docs.
Proof.
  split; [constructor|]. split.
  - constructor; [|constructor; [|constructor]]; (constructor; [|constructor]); (split; [discriminate|]); repeat constructor; discriminate.
  - unfold ex_docs, ex_doc, all_settings. cbn [flat_map app doc_settings member_settings map fst snd].
    repeat (apply Forall_cons; [unfold suits; cbn [st_field st_key st_value]; split; intro H;
      first [exfalso; vm_compute in H; intuition discriminate | eexists; eexists; split; [reflexivity|vm_compute; reflexivity]]|]).
    constructor.
Qed.
Definition ex_comp (s : string) : comp := {| p_name := bs s; p_index := no_index |}.
Lemma ex_named s path : Forall plain_comp path -> path <> [] -> print_name path = s -> forall q, named s q -> q = path.
Proof. intros F N E q H. eapply named_fun; [exact H|]. right. auto. Qed.
Lemma ex_plain s : forallb (fun c => negb (c =? 46) && negb (c =? 93)) (bs s) = true -> bs s <> [] -> plain_comp (ex_comp s).
Proof.
  intros H N. rewrite forallb_forall in H. split; cbn [p_name p_index ex_comp].
  - intro I. specialize (H _ I). discriminate.
  - left. split; [reflexivity|]. split; [exact N|]. intro L. destruct (bs s) as [|x l] eqn:E; [congruence|].
    assert (I : In (last (x :: l) 0) (x :: l)).
    { clear. revert x. induction l as [|y l IH]; intro x; [now left|]. right. exact (IH y). }
    specialize (H _ I). rewrite L in H. discriminate.
Qed.
Definition ex_sound : gconf :=
  ex_group [(""%string, ex_field "r1" "" MMeta); ("a.v"%string, ex_field "r1" "" MPlain); ("e"%string, ex_field "r2" "a.v,e" MScalar);
            ("s"%string, {| fc_channel := []; fc_trigger := []; fc_id := bs "s:id"; fc_type := MStructure; fc_order := no_order; fc_const := None |})].
Definition ex_paths : list (str * list comp) := [([], []); (bs "a.v", [ex_comp "a"; ex_comp "v"]); (bs "e", [ex_comp "e"]); (bs "s", [ex_comp "s"])].
Lemma ex_paths_named n path : In (n, path) ex_paths -> named n path.
Proof.
  cbn [In ex_paths]. intros [E|[E|[E|[E|[]]]]]; inversion E; subst; [now left| | |]; right; (split; [discriminate|]); (split; [|vm_compute; reflexivity]);
  repeat (apply Forall_cons; [apply ex_plain; [vm_compute; reflexivity|discriminate]|]); constructor.
Qed.
Lemma ex_sound_paths y path : In y (gc_fields ex_sound) -> named (fst y) path -> In (fst y, path) ex_paths.
Proof.
  intros I N. assert (K : exists q, In (fst y, q) ex_paths).
  { cbn in I. destruct I as [<-|[<-|[<-|[<-|[]]]]]; cbn [fst ex_paths In]; eexists; [left|right; left|right; right; left|right; right; right; left]; reflexivity. }
  destruct K as (q & K). now rewrite (named_fun _ _ _ N (ex_paths_named _ _ K)).
Qed.
Example C85_ex : sound_group ex_db ex_sound /\ (forall y, In y (gc_fields ex_sound) -> tidy y).
Proof.
  split; [split|].
  - cbn. repeat constructor.
  - intros y I _. split.
    + split; [cbn in I; destruct I as [<-|[<-|[<-|[<-|[]]]]]; eexists; apply ex_paths_named; cbn [fst ex_paths In]; [left|right; left|right; right; left|right; right; right; left]; reflexivity|].
      cbn in I; destruct I as [<-|[<-|[<-|[<-|[]]]]]; cbn [snd]; intro C; first [exfalso; apply C; reflexivity|eexists; split; [vm_compute; reflexivity|intros; discriminate]].
    + intros path N T. pose proof (ex_sound_paths _ _ I N) as P. cbn in I; destruct I as [<-|[<-|[<-|[<-|[]]]]]; cbn [fst snd] in *;
      cbn [ex_paths In] in P; destruct P as [P|[P|[P|[P|[]]]]]; inversion P; subst; cbn in T; try exact Logic.I; try discriminate; intuition discriminate.
  - intros y I path N. pose proof (ex_sound_paths _ _ I N) as P. cbn in I; destruct I as [<-|[<-|[<-|[<-|[]]]]]; cbn [fst snd] in *;
      cbn [ex_paths In] in P; destruct P as [P|[P|[P|[P|[]]]]]; inversion P; subst; (split; [intro; try discriminate; reflexivity|]); try exact Logic.I; cbn; discriminate.
Qed.
Example C86_ex : exists grp m, create_group ex_db (define_group (bs "g") ex_sound) = JOk grp /\ g_type grp = Some m /\
  alone (gc_fields ex_sound) (bs "a.v", ex_field "r1" "" MPlain) [bs "a"; bs "v"] /\
  alone (gc_fields ex_sound) ([], ex_field "r1" "" MMeta) [bs "alarm"].
Proof.
  eexists. eexists. split; [vm_compute; reflexivity|]. split; [reflexivity|].
  assert (ST : forall a b p q, starts (a :: p) (b :: q) -> a = b) by (intros a b p q (r & E); inversion E; reflexivity).
  split; (split; [intro X; apply ST in X; discriminate|]); (split; [discriminate|]); intros y path I NE _ N M;
    pose proof (ex_sound_paths _ _ I N) as P; cbn in I; destruct I as [<-|[<-|[<-|[<-|[]]]]]; try (apply NE; reflexivity); cbn [fst snd] in *;
    cbn [ex_paths In] in P; destruct P as [P|[P|[P|[P|[]]]]]; try discriminate P; inversion P; subst; cbn in M;
    repeat match goal with H : _ \/ _ |- _ => destruct H as [H|H] end; try (apply ST in M; discriminate M).
Qed.

Print Assumptions C82_spelled.
Print Assumptions C82_printed.
Print Assumptions C82_refused.
Print Assumptions C82_index_refuted.
Print Assumptions C82_malformed_refuted.
Print Assumptions C83_settings.
Print Assumptions C83_files.
Print Assumptions C83_files_clear.
Print Assumptions C83_unreported_refuted.
Print Assumptions C83_abort_refuted.
Print Assumptions C83_array_refuted.
Print Assumptions C83_command_refuted.
Print Assumptions C84_valid.
Print Assumptions C84_order.
Print Assumptions C84_triggers.
Print Assumptions C84_blank_refuted.
Print Assumptions C85_created.
Print Assumptions C85_groups.
Print Assumptions C85_failed_refuted.
Print Assumptions C85_range_refuted.
Print Assumptions C85_subscript_refuted.
Print Assumptions C86_group.
Print Assumptions C86_member.
Print Assumptions C86_meta.
Print Assumptions C86_structure.
Print Assumptions C86_nested_refuted.
Print Assumptions C86_options.
