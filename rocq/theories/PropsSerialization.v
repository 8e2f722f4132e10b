(** Property theorems C01-C06: curve files. *)
From Coq Require Import List ZArith Lia Bool.
From Verif Require Import Base ModelSerialization SpecSerialization ProofSerialization.
Import ListNotations.
Open Scope Z_scope.

(** A concrete curve list used to show that the hypotheses are met: a closed
    polyline with an awkward mix of doubles (-0.0, a NaN) and an open line. *)
Definition one : dbl := 0x3FF0000000000000.
Definition ex_curve1 : curve :=
  Curve 1 false [V4b 0 0 0 one; V4b one 0x8000000000000000 0x7FF8000000000001 one; V4b 0 0 0 one] [0; 0; one; 0x4000000000000000; 0x4000000000000000].
Definition ex_curve2 : curve :=
  Curve 1 true [V4b 0 0 0 one; V4b one one one one] [0; 0; one; one].
Example ex_storable : storable [ex_curve1; ex_curve2].
Proof.
  split; [|cbn; lia].
  repeat constructor; cbn; try discriminate; try (intros HX; discriminate HX); lia.
Qed.

(** C01. Round trip, whatever bytes follow in the buffer. *)
Theorem C01_curve_file_round_trip :
  forall (cs : list curve) (trailing : list byte),
  storable cs ->
  exists bytes cs',
    serializeNURBSCurves cs = Ok bytes /\
    deserializeNURBSCurves (bytes ++ trailing) = Ok cs' /\
    Forall2 same_geometry cs cs'.
Proof. exact curves_round_trip. Qed.
Print Assumptions C01_curve_file_round_trip.

Example C01_instance :
  match serializeNURBSCurves [ex_curve1; ex_curve2] with
  | Ok bytes => length bytes = 4%nat + (4 + 1 + (4 + 96) + (4 + 40)) + (4 + 1 + (4 + 64) + (4 + 32))
  | _ => False
  end%nat.
Proof. vm_compute. reflexivity. Qed.

(** C02. Each reader consumes exactly the bytes its writer produced. *)
Theorem C02_records_self_delimiting :
  (forall i rest, - 2 ^ 31 <= i < 2 ^ 31 -> deserializeInt (serializeInt i ++ rest) = Ok (i, rest)) /\
  (forall d rest, is_dbl d -> deserializeDouble (serializeDouble d ++ rest) = Ok (d, rest)) /\
  (forall b rest, deserializeBool (serializeBool b ++ rest) = Ok (b, rest)) /\
  (forall v rest, is_vec4 v -> deserializeVec4 (serializeVec4 v ++ rest) = Ok (v, rest)) /\
  (forall l rest, Forall is_dbl l -> Z.of_nat (length l) < 2 ^ 31 ->
     deserializeVectorDouble (serializeVectorDouble l ++ rest) = Ok (l, rest)) /\
  (forall l rest, Forall is_vec4 l -> Z.of_nat (length l) < 2 ^ 31 ->
     deserializeVectorVec4 (serializeVectorVec4 l ++ rest) = Ok (l, rest)) /\
  (forall c rest, usable c -> exists bytes c',
     serializeNURBSCurve c = Ok bytes /\
     deserializeNURBSCurve (bytes ++ rest) = Ok (c', rest) /\ same_geometry c c').
Proof. exact records_self_delimiting. Qed.
Print Assumptions C02_records_self_delimiting.

Example C02_instance : usable ex_curve1 /\ usable ex_curve2.
Proof. destruct ex_storable as [H _]. inversion H as [|? ? H1 H2]; subst. inversion H2; subst. auto. Qed.

(** C03. Encodings are unique and prefix-free. *)
Theorem C03_encoding_injective_prefix_free :
  forall cs1 cs2 bytes1 bytes2 rest,
  storable cs1 -> storable cs2 ->
  serializeNURBSCurves cs1 = Ok bytes1 -> serializeNURBSCurves cs2 = Ok bytes2 ->
  bytes1 = bytes2 ++ rest ->
  rest = [] /\ Forall2 same_geometry cs1 cs2.
Proof. exact curves_injective. Qed.
Print Assumptions C03_encoding_injective_prefix_free.

Example C03_instance : exists b1 b2,
  serializeNURBSCurves [ex_curve1; ex_curve2] = Ok b1 /\
  serializeNURBSCurves [ex_curve2] = Ok b2 /\ b1 <> b2.
Proof. eexists. eexists. split; [reflexivity|]. split; [reflexivity|]. vm_compute. discriminate. Qed.

(** C04. Every torn file makes the reader run past the end of the buffer; it is
    never taken for a complete file. *)
Theorem C04_torn_file_never_accepted :
  forall cs bytes torn,
  storable cs -> writeNURBSCurvesToFile cs = Ok bytes -> proper_prefix torn bytes ->
  readNURBSCurvesFromFile (Some torn) = UB.
Proof. exact torn_file_not_accepted. Qed.
Print Assumptions C04_torn_file_never_accepted.

Example C04_instance : exists bytes,
  writeNURBSCurvesToFile [ex_curve1] = Ok bytes /\
  proper_prefix (firstn 60 bytes) bytes /\ length (firstn 60 bytes) = 60%nat.
Proof.
  eexists. split; [reflexivity|]. split; [|vm_compute; reflexivity].
  match goal with |- proper_prefix _ ?l => exists (skipn 60 l) end. split; [vm_compute; discriminate|]. symmetry. apply firstn_skipn.
Qed.

(** C05 is false of the code: no truncated file is ever reported as an error. *)
Theorem C05_torn_file_reported_refuted :
  exists cs bytes torn,
    storable cs /\ writeNURBSCurvesToFile cs = Ok bytes /\ proper_prefix torn bytes /\
    forall e, readNURBSCurvesFromFile (Some torn) <> Throw e.
Proof. exact torn_file_reported_refuted. Qed.
Print Assumptions C05_torn_file_reported_refuted.

(** C06 is false of the code, in both directions: the flag read back is the one
    computed from the control points. *)
Theorem C06_periodic_flag_refuted :
  (exists c bytes c', usable c /\ c_periodic c = true /\
     serializeNURBSCurve c = Ok bytes /\ deserializeNURBSCurve bytes = Ok (c', []) /\
     c_periodic c' = false) /\
  (exists c bytes c', usable c /\ c_periodic c = false /\
     serializeNURBSCurve c = Ok bytes /\ deserializeNURBSCurve bytes = Ok (c', []) /\
     c_periodic c' = true).
Proof. exact periodic_flag_refuted. Qed.
Print Assumptions C06_periodic_flag_refuted.

(** C06, what does hold: the flag read back is the value of is_periodic() of
    the curve that was written. *)
Theorem C06_periodic_flag_partial :
  forall cs bytes cs',
  storable cs -> serializeNURBSCurves cs = Ok bytes -> deserializeNURBSCurves bytes = Ok cs' ->
  Forall2 (fun c c' => is_periodic c = Ok (c_periodic c')) cs cs'.
Proof. exact curves_round_trip_flag. Qed.
Print Assumptions C06_periodic_flag_partial.

Example C06_instance : is_periodic ex_curve1 = Ok true /\ is_periodic ex_curve2 = Ok false.
Proof. vm_compute. auto. Qed.
