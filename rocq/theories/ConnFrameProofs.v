(** Proofs about frames: what is delivered of a list of them. *)
From Coq Require Import ZArith List Bool Lia ZifyBool ZifyNat.
From Verif Require Import Base BaseProofs WireModel WireSpec WireProofs ConnModel ConnSpec ConnProofs.
Import ListNotations.
Local Open Scope Z_scope.

Lemma u32_enc : forall be n, 0 <= n < 2 ^ 32 -> u32 be n = enc_u be 4 n.
Proof.
  intros be n R. unfold u32, enc_u. rewrite u_cast_id by (cbn; lia). cbn [le_bytes]. rewrite !Z.div_div by lia. reflexivity.
Qed.
Lemma u32_length : forall be n, length (u32 be n) = 4%nat.
Proof. intros. unfold u32. destruct be; reflexivity. Qed.

Section Conn.
  Variable H : Type.
  Variable handle : H -> bool -> msg -> option H.
  Variable is_client : bool.
  Variable readahead : Z.
  Variable host : bool.
  Notation turn := (turn H handle is_client readahead host).
  Notation bev := (bev_read H handle is_client readahead host).
  Notation bytes := (frame_bytes is_client).

  Definition with_rx (r : list Z) (c : link) : link :=
    {| l_up := l_up c; l_send := l_send c; l_peer := l_peer c; l_ver := l_ver c; l_expect := l_expect c; l_segcmd := l_segcmd c; l_seg := l_seg c;
       l_rx := r; l_low := l_low c; l_high := l_high c |}.
  Definition to_send (b : bool) (c : link) : link :=
    {| l_up := l_up c; l_send := b; l_peer := l_peer c; l_ver := l_ver c; l_expect := l_expect c; l_segcmd := l_segcmd c; l_seg := l_seg c;
       l_rx := l_rx c; l_low := l_low c; l_high := l_high c |}.
  Definition heard (p : bool) (v : Z) (e : bool) (cmd : Z) (seg : list Z) (c : link) : link :=
    {| l_up := l_up c; l_send := l_send c; l_peer := p; l_ver := v; l_expect := e; l_segcmd := cmd; l_seg := seg;
       l_rx := l_rx c; l_low := l_low c; l_high := l_high c |}.
  Definition fturn (c : link) (h : H) (f : frame) : link * H * list msg :=
    match f with
    | Control ver cmd be data => (to_send (if cmd =? 2 then be else l_send c) c, h, [])
    | App ver be seg cmd body =>
      let s := l_seg c ++ body in
      let deliver cmd :=
        let c' := heard be ver false cmd [] c in
        let m := {| m_cmd := cmd; m_be := be; m_ver := ver; m_body := s |} in
        if known cmd then
          match handle h (l_send c) m with Some h' => (c', h', [m]) | None => (closed c', h, [m]) end
        else (c', h, []) in
      match seg, l_expect c with
      | Whole, false => deliver cmd
      | First, false => (heard be ver true cmd s c, h, [])
      | Middle, true => if cmd =? l_segcmd c then (heard be ver true cmd s c, h, []) else (closed (heard be ver (l_expect c) (l_segcmd c) s c), h, [])
      | Last, true => if cmd =? l_segcmd c then deliver cmd else (closed (heard be ver (l_expect c) (l_segcmd c) s c), h, [])
      | _, _ => (closed (heard be ver (l_expect c) (l_segcmd c) s c), h, [])
      end
    end.
  Definition on_rx (r : list Z) (x : link * H * list msg) : turned H :=
    let '(c, h, o) := x in Next H (if l_up c then with_rx r c else c) h o.
  Lemma length_frame : forall be n rest c x y z w, 0 <= n < 2 ^ 32 -> l_rx c = x :: y :: z :: w :: u32 be n ++ rest -> length_of host be c = n.
  Proof.
    intros be n rest c x y z w R E. unfold length_of. rewrite E. cbn [skipn].
    rewrite firstn_app, u32_length, Nat.sub_diag, firstn_O, app_nil_r. rewrite firstn_all2 by (rewrite u32_length; lia).
    rewrite u32_enc by exact R. pose proof (from_wire_u_in host 4 0 n [] be ltac:(cbn; lia)) as K. rewrite app_nil_r in K. unfold inbuf in K. rewrite K. reflexivity.
  Qed.
  Lemma turn_frame : forall f c h rest, l_up c = true -> ok_frame f -> turn (with_rx (bytes f ++ rest) c) h = on_rx rest (fturn c h f).
  Proof.
    intros [ver cmd be data|ver be seg cmd body] c h rest U OK; cbn in OK; destruct OK as (V & R); unfold ConnModel.turn.
    - assert (L : (zlen (l_rx (with_rx (bytes (Control ver cmd be data) ++ rest) c)) <? 8) = false).
      { cbn [with_rx l_rx]. rewrite zl, app_length. cbn [frame_bytes]. rewrite app_length, u32_length. cbn [length]. lia. }
      rewrite L. unfold byte. cbn [with_rx l_rx frame_bytes app nth]. apply Z.eqb_neq in V. rewrite V. cbn zeta.
      replace (skipn 8 (202 :: ver :: (1 + (if is_client then 64 else 0) + (if be then 128 else 0)) :: cmd :: u32 be data ++ rest)) with rest.
      2:{ cbn [skipn]. destruct be; reflexivity. }
      destruct is_client, be; cbn [orb negb xorb]; unfold on_rx, fturn, to_send, with_rx; cbn [l_up l_send l_peer l_ver l_expect l_segcmd l_seg l_rx l_low l_high]; rewrite U; reflexivity.
    - assert (L : (zlen (l_rx (with_rx (bytes (App ver be seg cmd body) ++ rest) c)) <? 8) = false).
      { cbn [with_rx l_rx]. rewrite zl, app_length. cbn [frame_bytes]. rewrite !app_length, u32_length. cbn [length]. lia. }
      rewrite L.
      set (c0 := with_rx (bytes (App ver be seg cmd body) ++ rest) c).
      set (fl := seg_bits seg + (if is_client then 64 else 0) + (if be then 128 else 0)).
      assert (RX : l_rx c0 = 202 :: ver :: fl :: cmd :: u32 be (zlen body) ++ body ++ rest) by (unfold c0; cbn; rewrite <- app_assoc; reflexivity).
      assert (B0 : byte 0 c0 = 202 /\ byte 1 c0 = ver /\ byte 2 c0 = fl /\ byte 3 c0 = cmd) by (unfold byte; rewrite RX; auto).
      destruct B0 as (B0 & B1 & B2 & B3). rewrite B0, B1, B2, B3. apply Z.eqb_neq in V. rewrite V. change (202 =? 202) with true. cbn zeta. cbn [negb orb].
      assert (F : flag flag_Server fl = is_client /\ flag flag_Control fl = false /\ flag flag_MSB fl = be /\ Z.land fl flag_SegMask = seg_bits seg /\
                  flag flag_SegLast fl = match seg with Middle | Last => true | _ => false end).
      { unfold fl. destruct seg, is_client, be; cbn; auto. }
      destruct F as (F1 & F2 & F3 & F4 & F5). rewrite F1, F2, F3, F4, F5, xorb_nilpotent.
      pose proof (zlen_nonneg body) as NN. rewrite (length_frame be (zlen body) (body ++ rest) c0 _ _ _ _ ltac:(lia) RX).
      assert (SK : skipn 8 (l_rx c0) = body ++ rest) by (rewrite RX; destruct be; reflexivity).
      assert (L3 : (zlen (l_rx c0) - 8 <? zlen body) = false). { rewrite RX, !zl. cbn [length]. rewrite !app_length, u32_length. lia. }
      rewrite L3, SK. unfold zlen. rewrite Nat2Z.id, firstn_app, Nat.sub_diag, firstn_O, app_nil_r, firstn_all, skipn_app, Nat.sub_diag, skipn_all. cbn [skipn app].
      unfold c0. cbn [with_rx l_up l_send l_expect l_segcmd l_seg l_low l_high]. rewrite U.
      unfold on_rx, fturn.
      destruct seg, (l_expect c); cbn [xorb orb andb negb seg_bits]; cbn -[known closed]; unfold heard, with_rx, closed; cbn -[known];
        rewrite ?U; try reflexivity.
      2, 3: destruct (Z.eqb_spec cmd (l_segcmd c)) as [EC|EC]; cbn -[known]; [rewrite <- EC|reflexivity].
      2: rewrite ?U; reflexivity.
      all: destruct (known cmd); [|rewrite ?U; reflexivity]; destruct (handle _ _ _); cbn; rewrite ?U; reflexivity.
  Qed.
  Fixpoint frun (c : link) (h : H) (fs : list frame) : link * H * list msg :=
    match fs with
    | [] => (c, h, [])
    | f :: fs' =>
      let '(c1, h1, o1) := fturn c h f in
      if l_up c1 then let '(c2, h2, o2) := frun c1 h1 fs' in (c2, h2, o1 ++ o2) else (c1, h1, o1)
    end.
  Lemma bev_frames : forall fs c h rest, l_up c = true -> Forall ok_frame fs ->
    bev (with_rx (stream is_client fs ++ rest) c) h =
    let '(c1, h1, o1) := frun c h fs in
    if l_up c1 then let '(c2, h2, o2) := bev (with_rx rest c1) h1 in (c2, h2, o1 ++ o2) else (c1, h1, o1).
  Proof.
    induction fs as [|f fs IH]; intros c h rest U OK.
    - cbn [frun stream map concat app]. rewrite U. destruct (bev _ h) as [[c2 h2] o2]. reflexivity.
    - inversion OK as [|? ? O1 O2]; subst. unfold stream. cbn [map concat]. rewrite <- app_assoc. rewrite bev_turn.
      change (l_up (with_rx (bytes f ++ concat (map bytes fs) ++ rest) c)) with (l_up c). rewrite U.
      rewrite (turn_frame f c h _ U O1). cbn [frun]. destruct (fturn c h f) as [[c1 h1] o1]. cbn [on_rx]. destruct (l_up c1) eqn:U1.
      + specialize (IH c1 h1 rest U1 O2). unfold stream in IH. rewrite IH. destruct (frun c1 h1 fs) as [[c2 h2] o2]. destruct (l_up c2).
        * destruct (bev (with_rx rest c2) h2) as [[c3 h3] o3]. rewrite app_assoc. reflexivity.
        * reflexivity.
      + rewrite bev_turn, U1. cbn [fst snd]. rewrite app_nil_r. reflexivity.
  Qed.
  Lemma frun_app : forall fs gs c h, l_up c = true -> frun c h (fs ++ gs) =
    let '(c1, h1, o1) := frun c h fs in
    if l_up c1 then let '(c2, h2, o2) := frun c1 h1 gs in (c2, h2, o1 ++ o2) else (c1, h1, o1).
  Proof.
    induction fs as [|f fs IH]; intros gs c h U; cbn [frun app].
    - rewrite U. destruct (frun c h gs) as [[c2 h2] o2]. reflexivity.
    - destruct (fturn c h f) as [[c1 h1] o1]. destruct (l_up c1) eqn:U1; [|rewrite U1; reflexivity]. rewrite (IH gs c1 h1 U1).
      destruct (frun c1 h1 fs) as [[c2 h2] o2]. destruct (l_up c2); [|reflexivity]. destruct (frun c2 h2 gs) as [[c3 h3] o3]. rewrite app_assoc. reflexivity.
  Qed.

  (** ** Messages *)
  Definition idle (c : link) : Prop := l_up c = true /\ l_expect c = false /\ l_seg c = [].
  Definition partway (cmd : Z) (b : list Z) (c : link) : Prop := l_up c = true /\ l_expect c = true /\ l_segcmd c = cmd /\ l_seg c = b.
  Lemma split_apps : forall fs f r, apps fs = f :: r -> exists cs gs, fs = cs ++ f :: gs /\ Forall (fun x => is_app x = false) cs /\ apps gs = r /\ is_app f = true.
  Proof.
    induction fs as [|x fs IH]; intros f r E; [discriminate|]. cbn in E. destruct (is_app x) eqn:A.
    - injection E as -> E. exists [], fs. auto.
    - destruct (IH _ _ E) as (cs & gs & -> & B & C & D). exists (x :: cs), gs. auto.
  Qed.
  Lemma none_apps : forall fs, apps fs = [] -> Forall (fun x => is_app x = false) fs.
  Proof. induction fs as [|x fs IH]; intros E; [constructor|]. cbn in E. destruct (is_app x) eqn:A; [discriminate|]. constructor; auto. Qed.
  Lemma frun_ctls : forall cs c h, l_up c = true -> Forall (fun x => is_app x = false) cs -> exists b, frun c h cs = (to_send b c, h, []).
  Proof.
    induction cs as [|x cs IH]; intros c h U A.
    - exists (l_send c). destruct c; reflexivity.
    - inversion A as [|? ? A1 A2]; subst. destruct x as [ver cmd be data|]; [|discriminate]. cbn [frun fturn to_send l_up]. rewrite U.
      destruct (IH (to_send (if cmd =? 2 then be else l_send c) c) h U A2) as (b & E). exists b. rewrite E. reflexivity.
  Qed.
  Lemma frun_opened : forall cmd op b, opened cmd op b -> forall fs c h, apps fs = op -> idle c ->
    exists c', frun c h fs = (c', h, []) /\ partway cmd b c'.
  Proof.
    intros cmd op b [v be b0 mid M] fs c h E (I1 & I2 & I3).
    apply split_apps in E as (cs & gs & -> & A & E & X). rewrite frun_app by exact I1. destruct (frun_ctls cs c h I1 A) as (s & R). rewrite R. cbn [to_send l_up]. rewrite I1.
    cbn [frun fturn]. cbn [to_send l_expect l_seg]. rewrite I2, I3. cbn [heard l_up to_send]. rewrite I1. cbn [app].
    set (c1 := heard be v true cmd b0 (to_send s c)).
    assert (G : forall mid gs c1 b0, Forall (middle_of cmd) mid -> apps gs = mid -> partway cmd b0 c1 ->
      exists c', frun c1 h gs = (c', h, []) /\ partway cmd (b0 ++ concat (map body_of mid)) c').
    { clear. induction mid as [|f mid IH]; intros gs c1 b0 M E P.
      - destruct (frun_ctls gs c1 h (proj1 P) (none_apps _ E)) as (s & R). exists (to_send s c1). split; [exact R|]. cbn. rewrite app_nil_r. exact P.
      - inversion M as [|? ? M1 M2]; subst. apply split_apps in E as (cs & gs' & -> & A & E & X). destruct P as (P1 & P2 & P3 & P4).
        rewrite frun_app by exact P1. destruct (frun_ctls cs c1 h P1 A) as (s & R). rewrite R. cbn [to_send l_up]. rewrite P1.
        destruct f as [|v be [| | |] cm bo]; try contradiction. cbn in M1. subst cm. cbn [frun fturn]. cbn [to_send l_expect l_seg l_segcmd]. rewrite P2, P3, Z.eqb_refl, P4.
        cbn [heard l_up to_send]. rewrite P1.
        destruct (IH gs' (heard be v true cmd (b0 ++ bo) (to_send s c1)) (b0 ++ bo) M2 E) as (c' & R' & P').
        { split; [exact P1|]. split; [reflexivity|]. split; reflexivity. }
        change {| l_up := l_up c1; l_send := s; l_peer := be; l_ver := v; l_expect := true; l_segcmd := cmd; l_seg := b0 ++ bo; l_rx := l_rx c1; l_low := l_low c1; l_high := l_high c1 |}
          with (heard be v true cmd (b0 ++ bo) (to_send s c1)).
        rewrite R'. exists c'. split; [reflexivity|]. cbn [map concat body_of]. rewrite app_assoc. exact P'. }
    destruct (G mid gs c1 b0 M E) as (c' & R' & P'). { split; [exact I1|]. split; [reflexivity|]. split; reflexivity. }
    change {| l_up := l_up c; l_send := s; l_peer := be; l_ver := v; l_expect := true; l_segcmd := cmd; l_seg := b0; l_rx := l_rx c; l_low := l_low c; l_high := l_high c |} with c1.
    rewrite R'. exists c'. split; [reflexivity|exact P'].
  Qed.
  Lemma apps_split : forall a b fs, apps fs = a ++ b -> exists f1 f2, fs = f1 ++ f2 /\ apps f1 = a /\ apps f2 = b.
  Proof.
    induction a as [|x a IH]; intros b fs E.
    - exists [], fs. auto.
    - cbn [app] in E. apply split_apps in E as (cs & gs & -> & A & E & X). apply IH in E as (f1 & f2 & -> & E1 & E2).
      exists (cs ++ x :: f1), f2. split; [rewrite <- app_assoc; reflexivity|]. split; [|exact E2].
      unfold apps in *. rewrite filter_app. cbn [filter]. rewrite X. rewrite E1.
      replace (filter is_app cs) with (@nil frame); [reflexivity|].
      clear -A. induction A as [|y l Y A IH]; [reflexivity|]. cbn. rewrite Y. exact IH.
  Qed.
  Definition told (ms : list msg) (r : link * H * list msg) : Prop :=
    let '(c', h', o) := r in
    starts o (filter (fun m => known (m_cmd m)) ms) /\
    (l_up c' = true -> o = filter (fun m => known (m_cmd m)) ms /\ idle c') /\
    ((forall h s m, handle h s m <> None) -> l_up c' = true).
  Lemma frun_made : forall l ms, made_of l ms -> forall fs c h, apps fs = l -> idle c -> told ms (frun c h fs).
  Proof.
    induction 1 as [|v be cmd b l ms M IH|v be cmd op b b' l ms O M IH]; intros fs c h E I.
    - destruct I as (I1 & I2 & I3). destruct (frun_ctls fs c h I1 (none_apps _ E)) as (s & R). rewrite R. cbn. split; [exists []; reflexivity|]. split; [intros _; repeat split; auto|auto].
    - apply split_apps in E as (cs & gs & -> & A & E & X). destruct I as (I1 & I2 & I3).
      rewrite frun_app by exact I1. destruct (frun_ctls cs c h I1 A) as (s & R). rewrite R. cbn [to_send l_up]. rewrite I1.
      cbn [frun fturn]. cbn [to_send l_expect l_seg l_send]. rewrite I2, I3. cbn [app filter m_cmd].
      destruct (known cmd) eqn:K.
      + destruct (handle h s _) as [h'|] eqn:HD.
        * cbn [heard l_up to_send]. rewrite I1.
          match goal with |- context [frun ?x h' gs] => specialize (IH gs x h' E ltac:(split; [exact I1|split; reflexivity])); destruct (frun x h' gs) as [[c2 h2] o2] end.
          destruct IH as ((r & S) & U & V). unfold told. cbn [filter m_cmd app]. rewrite K. split; [exists r; cbn [app]; rewrite S; reflexivity|]. split; [|exact V]. intros W. destruct (U W) as (-> & Y). split; [reflexivity|exact Y].
        * cbn [closed l_up]. unfold told. cbn [filter m_cmd app]. rewrite K. split; [eexists; reflexivity|]. split; [discriminate|]. intros Y. exfalso. exact (Y _ _ _ HD).
      + cbn [heard l_up to_send]. rewrite I1.
        match goal with |- context [frun ?x h gs] => specialize (IH gs x h E ltac:(split; [exact I1|split; reflexivity])); destruct (frun x h gs) as [[c2 h2] o2] end.
        unfold told. cbn [filter m_cmd app]. rewrite K. exact IH.
    - apply apps_split in E as (f1 & f2 & -> & E1 & E2). rewrite frun_app by exact (proj1 I).
      destruct (frun_opened _ _ _ O f1 c h E1 I) as (c1 & R1 & P). rewrite R1. destruct P as (P1 & P2 & P3 & P4). rewrite P1.
      apply split_apps in E2 as (cs & gs & -> & A & E2 & X).
      rewrite frun_app by exact P1. destruct (frun_ctls cs c1 h P1 A) as (s & R). rewrite R. cbn [to_send l_up]. rewrite P1.
      cbn [frun fturn]. cbn [to_send l_expect l_seg l_send l_segcmd]. rewrite P2, P3, P4, Z.eqb_refl. cbn [app filter m_cmd].
      destruct (known cmd) eqn:K.
      + destruct (handle h s _) as [h'|] eqn:HD.
        * cbn [heard l_up to_send]. rewrite P1.
          match goal with |- context [frun ?x h' gs] => specialize (IH gs x h' E2 ltac:(split; [exact P1|split; reflexivity])); destruct (frun x h' gs) as [[c2 h2] o2] end.
          destruct IH as ((r & S) & U & V). unfold told. cbn [filter m_cmd app]. rewrite K. split; [exists r; cbn [app]; rewrite S; reflexivity|]. split; [|exact V]. intros W. destruct (U W) as (-> & Y). split; [reflexivity|exact Y].
        * cbn [closed l_up]. unfold told. cbn [filter m_cmd app]. rewrite K. split; [eexists; reflexivity|]. split; [discriminate|]. intros Y. exfalso. exact (Y _ _ _ HD).
      + cbn [heard l_up to_send]. rewrite P1.
        match goal with |- context [frun ?x h gs] => specialize (IH gs x h E2 ltac:(split; [exact P1|split; reflexivity])); destruct (frun x h gs) as [[c2 h2] o2] end.
        unfold told. cbn [filter m_cmd app]. rewrite K. exact IH.
  Qed.
  (** a frame out of place ends the link *)
  Lemma frun_out : forall fs f gs c h, Forall (fun x => is_app x = false) fs -> out_of_place f -> idle c ->
    exists c', frun c h (fs ++ f :: gs) = (c', h, []) /\ l_up c' = false.
  Proof.
    intros fs f gs c h A O (I1 & I2 & I3). rewrite frun_app by exact I1. destruct (frun_ctls fs c h I1 A) as (s & R). rewrite R. cbn [to_send l_up]. rewrite I1.
    destruct f as [|v be [| | |] cmd b]; try contradiction; cbn [frun fturn]; cbn [to_send l_expect]; rewrite I2; eexists; split; reflexivity.
  Qed.
  Lemma frun_inter : forall cmd op b, opened cmd op b -> forall fs f gs c h, apps fs = op -> interrupts cmd f -> idle c ->
    exists c', frun c h (fs ++ f :: gs) = (c', h, []) /\ l_up c' = false.
  Proof.
    intros cmd op b O fs f gs c h E N I. rewrite frun_app by exact (proj1 I).
    destruct (frun_opened _ _ _ O fs c h E I) as (c1 & R1 & P). rewrite R1. destruct P as (P1 & P2 & P3 & P4). rewrite P1.
    destruct f as [|v be [| | |] cm bo]; try contradiction; cbn in N; cbn [frun fturn]; rewrite P2; try (eexists; split; reflexivity);
      apply Z.eqb_neq in N; rewrite P3, N; eexists; split; reflexivity.
  Qed.
  (** after some complete messages *)
  Lemma frun_then : forall l ms fs gs c h, made_of l ms -> apps fs = l -> idle c ->
    (forall c1 h1, idle c1 -> exists c', frun c1 h1 gs = (c', h1, []) /\ l_up c' = false) ->
    exists c' h' o, frun c h (fs ++ gs) = (c', h', o) /\ l_up c' = false /\ starts o (filter (fun m => known (m_cmd m)) ms).
  Proof.
    intros l ms fs gs c h M E I N. rewrite frun_app by exact (proj1 I). pose proof (frun_made _ _ M fs c h E I) as T.
    destruct (frun c h fs) as [[c1 h1] o1]. destruct T as (S & U & V). destruct (l_up c1) eqn:U1.
    - destruct (U eq_refl) as (-> & I'). destruct (N c1 h1 I') as (c2 & R & D). rewrite R. do 3 eexists. split; [reflexivity|]. split; [exact D|]. exists []. rewrite !app_nil_r. reflexivity.
    - do 3 eexists. split; [reflexivity|]. split; [exact U1|exact S].
  Qed.

  (** ** From the new link *)
  Notation feeds := (feeds H handle is_client readahead host).
  Notation link0 := (new_link readahead).
  Lemma feeds_new : forall bs send h, feeds (link0 send) h bs = bev (with_rx (concat bs) (link0 send)) h.
  Proof. intros. rewrite feeds_bev by apply new_waiting. reflexivity. Qed.
  Lemma idle_new : forall send, idle (link0 send). Proof. split; [reflexivity|split; reflexivity]. Qed.
  (** the start of a frame only makes the link wait *)
  Lemma bev_part : forall f p q c h, l_up c = true -> ok_frame f -> bytes f = p ++ q -> q <> [] ->
    exists c', bev (with_rx p c) h = (c', h, []) /\ l_up c' = true.
  Proof.
    intros f p q c h U OK E NE. rewrite bev_turn. change (l_up (with_rx p c)) with (l_up c). rewrite U.
    enough (X : exists c', turn (with_rx p c) h = Wait _ c' /\ l_up c' = true) by (destruct X as (c' & -> & X); eauto).
    assert (Q : (1 <= length q)%nat) by (destruct q; [congruence|cbn; lia]).
    destruct (le_lt_dec 8 (length p)) as [L|L].
    2:{ eexists. split; [apply turn_wait; left; split; [exact L|reflexivity]|exact U]. }
    destruct f as [ver cmd be data|ver be seg cmd body]; cbn in OK; destruct OK as (V & R).
    - exfalso. apply (f_equal (@length Z)) in E. cbn [frame_bytes] in E. rewrite !app_length, u32_length in E. cbn [length] in E. lia.
    - set (fl := seg_bits seg + (if is_client then 64 else 0) + (if be then 128 else 0)) in *.
      assert (P : exists b1, p = 202 :: ver :: fl :: cmd :: u32 be (zlen body) ++ b1 /\ body = b1 ++ q).
      { cbn [frame_bytes app] in E. fold fl in E.
        change (202 :: ver :: fl :: cmd :: u32 be (zlen body) ++ body) with ((202 :: ver :: fl :: cmd :: u32 be (zlen body)) ++ body) in E.
        assert (HL : length (202 :: ver :: fl :: cmd :: u32 be (zlen body)) = 8%nat) by (cbn [length]; rewrite u32_length; reflexivity).
        exists (skipn 8 p). split.
        - rewrite <- (firstn_skipn 8 p) at 1. apply (f_equal (firstn 8)) in E. rewrite !firstn_app, HL, Nat.sub_diag, firstn_O, app_nil_r in E.
          replace (8 - length p)%nat with 0%nat in E by lia. rewrite firstn_O, app_nil_r, (firstn_all2 (n := 8)) in E by lia. rewrite <- E. reflexivity.
        - apply (f_equal (skipn 8)) in E. rewrite !skipn_app, HL, Nat.sub_diag in E. rewrite (skipn_all2 (n := 8)) in E by lia.
          replace (8 - length p)%nat with 0%nat in E by lia. exact E. }
      destruct P as (b1 & EP & EB).
      set (c0 := with_rx p c).
      assert (RX : l_rx c0 = 202 :: ver :: fl :: cmd :: u32 be (zlen body) ++ b1) by exact EP.
      assert (B0 : byte 0 c0 = 202 /\ byte 1 c0 = ver /\ byte 2 c0 = fl /\ byte 3 c0 = cmd) by (unfold byte; rewrite RX; auto).
      destruct B0 as (B0 & B1 & B2 & B3).
      assert (F : flag flag_Server fl = is_client /\ flag flag_Control fl = false /\ flag flag_MSB fl = be).
      { unfold fl. destruct seg, is_client, be; cbn; auto. }
      destruct F as (F1 & F2 & F3). pose proof (zlen_nonneg body) as NN.
      assert (LL : len_of host c0 = zlen body). { unfold len_of. rewrite B2, F3. eapply length_frame; [lia|exact RX]. }
      eexists. split; [apply turn_wait; right; split; [|split; [|reflexivity]]|exact U].
      + split; [exact L|]. rewrite B0, B1, B2, F1, F2, xorb_nilpotent. apply Z.eqb_neq in V. rewrite V. split; reflexivity.
      + rewrite LL, RX. rewrite EB, !zl. cbn [length]. rewrite !app_length, u32_length. lia.
  Qed.
  (** the state in which more bytes are awaited *)
  Lemma feeds_waiting : forall bs send h c h' o, feeds (link0 send) h bs = (c, h', o) -> l_up c = true -> turn c h' = Wait _ c.
  Proof.
    intros bs send h c h' o E U. rewrite feeds_new in E. pose proof (bev_waits H handle is_client readahead host _ (with_rx (concat bs) (link0 send)) h (Nat.lt_succ_diag_r _) eq_refl) as K.
    rewrite E in K. exact (K U h').
  Qed.
  Lemma feeds_high : forall bs send h c h' o, 8 <= readahead -> feeds (link0 send) h bs = (c, h', o) -> l_up c = true ->
    zlen (l_rx c) < l_high c \/ (8 <= zlen (l_rx c) /\ 2 ^ 32 - 8 <= len_of host c).
  Proof.
    intros bs send h c h' o RA E U. pose proof (feeds_waiting _ _ _ _ _ _ E U) as W. apply turn_wait in W as [(A & B)|((A & _) & B & C)].
    - left. rewrite B. cbn [mark l_high l_rx]. rewrite zl. lia.
    - destruct (Z.le_gt_cases (2 ^ 32 - 8) (len_of host c)) as [G|G]; [right; rewrite zl in *; lia|left].
      assert (X : l_high c = high_of readahead (low_of (len_of host c))) by (rewrite C at 1; reflexivity). rewrite X.
      assert (LO : low_of (len_of host c) = 8 + len_of host c). { unfold low_of. apply Z.mod_small. rewrite zl in *. lia. }
      rewrite LO. unfold high_of. destruct (_ <? _); rewrite zl in *; lia.
  Qed.
End Conn.
