(** C01-C03: the base64 facet. *)
From Verif.Model Require Import Base Base64.
From Verif.Spec Require Import Base64Spec.
From Verif.Proof Require Import Base64Proof.

(** C01. The full property, "decode (encode s) = s for every byte string", is
    false of the code: a final zero byte of an incomplete group is lost. *)
Theorem C01_roundtrip_refuted :
  exists s, bytes s /\ decode (encode s) <> s.
Proof. exists [0]. split; [repeat constructor|]; vm_compute; discriminate. Qed.
Print Assumptions C01_roundtrip_refuted.

(** What holds: exactly the strings made of whole groups, or not ending in a
    zero byte, survive. *)
Theorem C01_roundtrip_partial : forall s,
  bytes s -> (decode (encode s) = s <-> ends_cleanly s).
Proof. exact roundtrip_iff. Qed.
Print Assumptions C01_roundtrip_partial.

(** And in every other case precisely the last byte is missing. *)
Theorem C01_loss_is_one_byte : forall s,
  bytes s -> ~ ends_cleanly s -> decode (encode s) = removelast s.
Proof. exact dirty_loses. Qed.
Print Assumptions C01_loss_is_one_byte.

(** Several writes, each flushed with its own padding, read back as one. *)
Theorem C01_several_writes_partial : forall ws,
  Forall (fun w => bytes w /\ ends_cleanly w) ws ->
  decode (concat (map encode ws)) = concat ws.
Proof. exact writes_roundtrip. Qed.
Print Assumptions C01_several_writes_partial.

Example C01_hypotheses_met :
  bytes [104; 105; 0; 7] /\ ends_cleanly [104; 105; 0; 7]
  /\ encode [104; 105; 0; 7] = [97; 71; 107; 65; 66; 119; 61; 61]
  /\ bytes [104; 0] /\ ~ ends_cleanly [104; 0].
Proof.
  split; [repeat (constructor; [lia|]); constructor|].
  split; [right; vm_compute; discriminate|].
  split; [vm_compute; reflexivity|].
  split; [repeat (constructor; [lia|]); constructor|].
  intros [H|H]; vm_compute in H; [discriminate|apply H; reflexivity].
Qed.

(** C02. In a large enough buffer the encoder writes the RFC 4648 encoding,
    consumes everything, returns to its initial state and reports ok. *)
Theorem C02_rfc4648_partial : forall s cap,
  bytes s -> ends_cleanly s -> (length (rfc_encode s) <= cap)%nat ->
  do_out st64_init s cap = (rfc_encode s, st64_init, [], CvtOk).
Proof.
  exact (fun s cap HB HC HL =>
    eq_trans (do_out_actual s cap HB HL)
      (f_equal (fun o => (o, st64_init, [], CvtOk)) (actual_clean s HC))).
Qed.
Print Assumptions C02_rfc4648_partial.

(** Without the condition on the last byte it does not. *)
Theorem C02_rfc4648_refuted :
  exists s, bytes s /\ encode s <> rfc_encode s.
Proof. exists [97; 0]. split; [repeat (constructor; [lia|]); constructor|]; vm_compute; discriminate. Qed.
Print Assumptions C02_rfc4648_refuted.

(** The decoder accepts every RFC 4648 encoding, whoever produced it. *)
Theorem C02_decodes_rfc4648 : forall s, bytes s -> decode (rfc_encode s) = s.
Proof. exact decode_rfc. Qed.
Print Assumptions C02_decodes_rfc4648.

Example C02_hypotheses_met :
  bytes [1; 2; 3; 4; 255] /\ ends_cleanly [1; 2; 3; 4; 255]
  /\ (length (rfc_encode [1; 2; 3; 4; 255]%Z) <= 8)%nat.
Proof.
  split; [repeat (constructor; [lia|]); constructor|].
  split; [right; vm_compute; discriminate|vm_compute; lia].
Qed.

(** C03. Any sequence of output buffers gives what one buffer of the total size
    gives, from any state and for any input. *)
Theorem C03_output_buffers : forall caps s input,
  out_calls caps s input =
  let '(o, s', r, _) := do_out s input (list_sum caps) in (o, s', r).
Proof. exact out_calls_once. Qed.
Print Assumptions C03_output_buffers.

(** Any cutting of the decoder's input gives what one call gives. *)
Theorem C03_input_pieces : forall pieces,
  fst (in_calls pieces st64_init) = decode (concat pieces).
Proof. exact in_calls_concat. Qed.
Print Assumptions C03_input_pieces.

(** A decoder stopped by a full output buffer and called again with the rest of
    the room continues as if it had not been stopped. *)
Theorem C03_decoder_resumes : forall input s c1 c2,
  in_loop input s (c1 + c2) =
  let '(o, s1, r1) := in_loop input s c1 in
  let '(o2, s2, r2) := in_loop r1 s1 (c1 + c2 - length o) in (o ++ o2, s2, r2).
Proof. exact in_loop_resume. Qed.
Print Assumptions C03_decoder_resumes.

Example C03_splits :
  out_calls [1; 2; 1; 9]%nat st64_init [104; 105; 0; 7]
  = ([97; 71; 107; 65; 66; 119; 61; 61], st64_init, []).
Proof. vm_compute. reflexivity. Qed.

(** The decoder leaves the end of its input, if any, only when its buffer is full, and says so. *)
Theorem C03_decoder_reports : forall s input cap o s' r res, do_in s input cap = (o, s', r, res) ->
  (exists used, input = used ++ r) /\ (length o <= cap)%nat /\ (res = CvtOk <-> r = []) /\ (res = CvtPartial -> length o = cap).
Proof. exact do_in_reports. Qed.
Print Assumptions C03_decoder_reports.
Example C03_full : do_in st64_init [97; 71; 107; 65] 1 = ([104], St 2 6, [107; 65], CvtPartial).
Proof. vm_compute. reflexivity. Qed.
