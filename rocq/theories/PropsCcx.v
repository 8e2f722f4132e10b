(** Curve-curve intersection: properties C76 and C139-C144. *)
From Coq Require Import List ZArith QArith Qcanon.
From Verif Require Import Base ModelVec ModelAabb ModelNurbs ModelCcx SpecAabb SpecNurbs SpecCurve SpecCcx
  ProofCcx ProofCcxTop ProofCcxBezier WitnessCcx.
Import ListNotations.
Open Scope Qc_scope.

(** C76 *)
Theorem C76_ccx_domain :
  forall len fuel c1 c2 tol result out, interval_covers c1 -> interval_covers c2 ->
  ccx len fuel c1 c2 tol result = Some (Ok out) ->
  exists new, out = result ++ new /\ forall s t, In (s, t) new -> within_interval c1 s /\ within_interval c2 t.
Proof. exact ccx_domain. Qed.
Print Assumptions C76_ccx_domain.

Example C76_case : interval_covers along_x /\ interval_covers along_y /\
  ccx len_l1 5 along_x along_y (qc 1 64) [] = Some (Ok along_pairs) /\ length along_pairs = 4%nat.
Proof. exact (conj along_x_covers (conj along_y_covers (conj along_found eq_refl))). Qed.

(** C139 *)
Theorem C139_ccx_sound :
  forall len fuel c1 c2 tol r result out, bisectable c1 -> bisectable c2 -> shorter len tol r ->
  ccx len fuel c1 c2 tol result = Some (Ok out) ->
  exists new, out = result ++ new /\ forall s t, In (s, t) new -> meet_near c1 c2 r s t.
Proof. exact ccx_sound. Qed.
Print Assumptions C139_ccx_sound.

Example C139_case : bisectable along_x /\ bisectable along_y /\ shorter len_l1 (qc 1 64) (qc 1 64) /\
  ccx len_l1 5 along_x along_y (qc 1 64) [] = Some (Ok along_pairs).
Proof. exact (conj (proj1 along_bisectable) (conj (proj2 along_bisectable) (conj along_shorter along_found))). Qed.

(** C140 *)
Theorem C140_ccx_complete :
  forall len fuel c1 c2 tol r result out u1 u2, bisectable c1 -> bisectable c2 -> 0 <= tol -> shorter len tol r ->
  ccx len fuel c1 c2 tol result = Some (Ok out) -> crossing c1 c2 u1 u2 -> represented c1 c2 tol r out u1 u2.
Proof. exact ccx_complete. Qed.
Print Assumptions C140_ccx_complete.

(** the hypotheses hold as in the case of C139, and these curves do cross *)
Example C140_case : forall u1 u2, crossing along_x along_y u1 u2 <-> u1 = qc 1 2 /\ u2 = qc 1 2.
Proof. exact along_crossing. Qed.

(** C141 *)
Theorem C141_ccx_returns :
  forall len c1 c2 tol result, bisectable c1 -> bisectable c2 ->
  (exists out, eventually (fun n => ccx len n c1 c2 tol result) (Ok out)) \/
  eventually (fun n => ccx len n c1 c2 tol result) (Throw EInvalidArgument).
Proof. exact ccx_returns. Qed.
Print Assumptions C141_ccx_returns.

Example C141_case : bisectable along_x /\ bisectable along_y. Proof. exact along_bisectable. Qed.

(** C142: false in general; with a tolerance too small for the length of a curve the call throws *)
Theorem C142_ccx_any_tolerance_refuted :
  exists len c1 c2 tol u1 u2,
  exact_on_axes len /\ shorter len tol tol /\ bisectable c1 /\ bisectable c2 /\ 0 < tol /\ crossing c1 c2 u1 u2 /\
  eventually (fun n => ccx len n c1 c2 tol []) (Throw EInvalidArgument).
Proof. exact long_witness. Qed.
Print Assumptions C142_ccx_any_tolerance_refuted.

Theorem C142_ccx_too_fine_throws :
  forall len c1 c2 tol r u1 u2 result, bisectable c1 -> bisectable c2 -> crossing c1 c2 u1 u2 -> shorter len tol r ->
  tol12 < snd (nc_interval c1) - fst (nc_interval c1) -> long_parts c1 r ->
  eventually (fun n => ccx len n c1 c2 tol result) (Throw EInvalidArgument).
Proof. exact ccx_throws. Qed.
Print Assumptions C142_ccx_too_fine_throws.

(** missing: curves with inner knots and pairs of intervals of different length *)
Theorem C142_ccx_returns_pairs_partial :
  forall len c1 c2 a1 a2 d tol r D1 D2 result,
  bezier c1 a1 (a1 + d) -> bezier c2 a2 (a2 + d) -> tight_box c1 -> tight_box c2 -> control_steps c1 D1 -> control_steps c2 D2 ->
  0 <= D1 -> 0 <= D2 -> enough c1 D1 d r -> enough c2 D2 d r -> recognised len tol r ->
  exists out, eventually (fun n => ccx len n c1 c2 tol result) (Ok out).
Proof. exact ccx_bezier_returns. Qed.
Print Assumptions C142_ccx_returns_pairs_partial.

(** a segment of 2^20 units and a tolerance of 1e-6 *)
Example C142_throws_case : bisectable long_x /\ bisectable along_y /\ crossing long_x along_y (qc 1 16777216) (qc 1 2) /\
  shorter len_l1 tol6 tol6 /\ tol12 < snd (nc_interval long_x) - fst (nc_interval long_x) /\ long_parts long_x tol6.
Proof. exact long_case. Qed.
Example C142_returns_case : bezier along_x 0 (0 + 1) /\ bezier along_y 0 (0 + 1) /\ tight_box along_x /\ tight_box along_y /\
  control_steps along_x (qc 1 8) /\ control_steps along_y (qc 1 8) /\
  enough along_x (qc 1 8) 1 (qc 1 130) /\ enough along_y (qc 1 8) 1 (qc 1 130) /\ recognised len_l1 (qc 1 64) (qc 1 130).
Proof. exact along_case. Qed.

(** C143: false; one crossing, four pairs, none within the tolerance of the crossing *)
Theorem C143_ccx_once_refuted :
  exists len c1 c2 tol fuel out u1 u2,
  exact_on_axes len /\ shorter len tol tol /\ bisectable c1 /\ bisectable c2 /\ 0 < tol /\
  (forall v1 v2, crossing c1 c2 v1 v2 <-> v1 = u1 /\ v2 = u2) /\
  ccx len fuel c1 c2 tol [] = Some (Ok out) /\ length out = 4%nat /\
  (forall s t, In (s, t) out -> tol < Qcabs (s - u1) /\ tol < Qcabs (t - u2)).
Proof. exact duplicates_witness. Qed.
Print Assumptions C143_ccx_once_refuted.

(** what the check against the last pair does guarantee *)
Theorem C143_ccx_neighbours_partial :
  forall len fuel c1 c2 tol out, ccx len fuel c1 c2 tol [] = Some (Ok out) ->
  forall i s t s' t', nth_error out i = Some (s, t) -> nth_error out (S i) = Some (s', t') ->
  tol < Qcabs (s - s') \/ tol < Qcabs (t - t').
Proof. exact ccx_neighbours. Qed.
Print Assumptions C143_ccx_neighbours_partial.

(** C144: false *)
Theorem C144_ccx_weights_refuted :
  exists c1 c2 u1 u2 n1 n2,
  good_curve c1 n1 /\ positive_weights (nc_cps c1) /\ interval_current c1 /\ good_curve c2 n2 /\ positive_weights (nc_cps c2) /\ interval_current c2 /\
  crossing c1 c2 u1 u2 /\ forall len tol fuel, ccx len (S fuel) c1 c2 tol [] = Some (Ok []).
Proof. exact weights_witness. Qed.
Print Assumptions C144_ccx_weights_refuted.
