(** Theorems on segmented buffers: C08, and the sliced array loops of C04. *)
From Coq Require Import ZArith List Bool Lia ZifyBool ZifyNat.
From Verif Require Import Base BaseProofs WireModel WireSpec WireProofs SegModel SegSpec SegProofs.
Import ListNotations.
Local Open Scope Z_scope.

(** C08: whatever a decoder does with the buffer, it can not observe where the
    slices begin and end. *)
Theorem C08_segmentation_invisible : forall A (p : rprog A), segmentation_invisible p.
Proof. intros. apply seg_invisible. Qed.

Lemma program_segment_independent {A} (dec : rbuf -> A * rbuf) (p : rprog A) :
  buffer_program dec p -> segment_independent dec.
Proof.
  intro P. exists p. split; [exact P|]. intros mss e.
  pose proof (seg_invisible p mss e) as S. destruct (run_seg mss p e) as [a e'].
  rewrite <- P. exact S.
Qed.

Theorem C08_primitive_decoders_segment_independent :
  forall host,
  (forall n i, segment_independent (from_wire_u host n i)) /\
  (forall n i, segment_independent (from_wire_s host n i)) /\
  (forall i nul, segment_independent (from_wire_size host i nul)) /\
  (forall i, segment_independent (from_wire_sel host i)) /\
  (forall i, segment_independent (from_wire_str host i)) /\
  segment_independent (from_wire_stra host) /\
  (forall n, segment_independent (from_wire_pod host n)) /\
  (forall i, segment_independent (from_wire_status host i)) /\
  (forall i, segment_independent (from_wire_header host i)) /\
  (forall i, segment_independent (from_wire_addr i)).
Proof.
  intro h. repeat apply conj; intros; eapply program_segment_independent.
  - apply p_u_ok. - apply p_s_ok. - apply p_size_ok. - apply p_sel_ok. - apply p_str_ok.
  - apply p_stra_ok. - apply p_pod_ok. - apply p_status_ok. - apply p_header_ok. - apply p_addr_ok.
Qed.

(** C08, sub-claim: skip() within the present window consumes exactly n bytes.
    This is how all callers but the fixed-size header skips use it
    (src/pvaproto.h:205, 229, 405, 510, 559). *)
Theorem C08_skip_in_window_partial : forall mss n e,
  0 <= n -> n <= zlen (ewin e) ->
  contiguous (eskip mss n e) = RB (skipn (Z.to_nat n) (econtent e)) (ebe e) (eerr e).
Proof.
  intros mss n e H L. rewrite eskip_window by auto. unfold contiguous.
  rewrite eadvance_content by auto. reflexivity.
Qed.

(** ... but skip() across a slice boundary consumes the rest of the window in
    addition to the n bytes asked for (src/pvaproto.h:79-80). *)
Theorem C08_skip_across_refuted :
  exists mss n e, eerr e = false /\ 0 <= n <= zlen (econtent e) /\
    eerr (eskip mss n e) = false /\
    econtent (eskip mss n e) <> skipn (Z.to_nat n) (econtent e).
Proof.
  exists 4, 3, (EB [1;2] [3;4;5;6;7;8] false false (fun _ => 4)).
  cbn. repeat apply conj; auto; try lia; discriminate.
Qed.

(** C04: the slice by slice loop reads, from every segmentation, the elements
    which are read one by one from the contiguous buffer, and stops at the same
    place with the same fault state.  [c] is the element count. *)
Theorem C04_sliced_array_read : forall mss host n c e,
  (n = 1 \/ n = 2 \/ n = 4 \/ n = 8)%nat ->
  exists l e', seg_pod_loop c mss host n (Z.of_nat n * Z.of_nat c) e = Some (l, e') /\
    from_wire_elems host n c (contiguous e) = (l, contiguous e').
Proof.
  intros mss host n c e Hn.
  assert (exists k, Z.of_nat n = 2 ^ Z.of_nat k) as [k K].
  { destruct Hn as [->|[->|[->| ->]]]; [exists 0%nat|exists 1%nat|exists 2%nat|exists 3%nat]; reflexivity. }
  apply (seg_pod_loop_ok k); auto.
Qed.

(** C04: the slice by slice writing loop puts on the wire each element's bytes
    in the buffer's byte order, whatever the slices, and then reading them back
    from any other segmentation gives the same elements. *)
Theorem C04_sliced_array_roundtrip : forall mss host host' n l o,
  (n = 1 \/ n = 2 \/ n = 4 \/ n = 8)%nat ->
  Forall (fun v => 0 <= v < 2 ^ (8 * Z.of_nat n)) l -> oerr o = false ->
  exists o' wire, out_pod_loop (length l) host n (mem_array host n l) o = Some o' /\
    odone o' = odone o ++ wire /\ oerr o' = false /\ zlen wire = Z.of_nat n * zlen l /\
    forall e rest, econtent e = wire ++ rest -> ebe e = obe o -> eerr e = false ->
      exists e', seg_pod_loop (length l) mss host' n (Z.of_nat n * zlen l) e = Some (l, e') /\
        econtent e' = rest /\ eerr e' = false.
Proof.
  intros mss host host' n l o Hn Hl Ho.
  assert (exists k, Z.of_nat n = 2 ^ Z.of_nat k) as [k K].
  { destruct Hn as [->|[->|[->| ->]]]; [exists 0%nat|exists 1%nat|exists 2%nat|exists 3%nat]; reflexivity. }
  destruct (out_pod_loop_ok k host n K (length l) l o (le_n _) Ho) as (o' & R1 & R2 & R3 & R4).
  exists o', (enc_elems (obe o) n l). repeat apply conj; auto.
  - unfold zlen. rewrite enc_elems_length. lia.
  - intros e rest C B E.
    destruct (seg_pod_loop_ok k mss host' n K (length l) (length l) e (le_n _)) as (l' & e' & L1 & L2).
    unfold contiguous in L2 at 1. rewrite C, B, E in L2.
    fold (inbuf (enc_elems (obe o) n l ++ rest) (obe o)) in L2.
    rewrite from_wire_elems_in in L2 by auto.
    inversion L2; subst. exists e'. repeat apply conj; auto; congruence.
Qed.

Example C04_sliced_nonvacuous :
  exists e', seg_pod_loop 3 4 false 2 6 (EB [1;2;3] [4;5;6] true false (fun _ => 5))
    = Some ([258; 772; 1286], e').
Proof. eexists. vm_compute. reflexivity. Qed.

Example C08_nonvacuous :
  fst (run_seg 1 (p_str true []) (EB [] [3; 65; 66; 67; 9] true false (fun _ => 1))) = [65; 66; 67].
Proof. vm_compute. reflexivity. Qed.

Print Assumptions C08_segmentation_invisible.
Print Assumptions C08_primitive_decoders_segment_independent.
Print Assumptions C08_skip_in_window_partial.
Print Assumptions C08_skip_across_refuted.
Print Assumptions C04_sliced_array_read.
Print Assumptions C04_sliced_array_roundtrip.
