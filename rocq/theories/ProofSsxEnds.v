(** Surface-surface intersection: the search ends. *)
From Coq Require Import List ZArith QArith Qcanon Bool Lia Lqa.
From Verif Require Import Base BaseFacts LoopFacts ModelVec ModelAabb SpecAabb ModelNurbs ModelSurface ModelBoundary ModelGjk ModelCsx ModelSsx
  SpecNurbs SpecCurve SpecSurface SpecCcx SpecGjk SpecCsx SpecBoundary SpecSsx
  ProofBspline ProofNurbs ProofMinimize ProofBoundary ProofSurface ProofSurfaceOps ProofSurfaceTop ProofCsxPieces ProofCsx ProofSsx.
Import ListNotations.
Open Scope Qc_scope.

(** ** More fuel does not change a result *)
Lemma andthen_more {A B} (x x' : option (res A)) (k k' : A -> option (res B)) :
  (forall r, x = Some r -> x' = Some r) -> (forall a r, k a = Some r -> k' a = Some r) -> forall r, andthen x k = Some r -> andthen x' k' = Some r.
Proof.
  intros H1 H2 r. destruct x as [y|]; [|discriminate]. rewrite (H1 y eq_refl). destruct y; cbn [andthen lift]; auto.
Qed.
Lemma lift_more {A B} (x : res A) (k k' : A -> option (res B)) :
  (forall a r, k a = Some r -> k' a = Some r) -> forall r, lift x k = Some r -> lift x k' = Some r.
Proof. intros H r. destruct x; cbn [lift]; auto. Qed.
Section More.
Variables rec rec' : nsurf * nsurf -> nsurf * nsurf -> ssx_out -> option (res ssx_out).
Hypothesis HR : forall a b o r, rec a b o = Some r -> rec' a b o = Some r.
Lemma inner_more a : forall bs o r, inner_loop rec a bs o = Some r -> inner_loop rec' a bs o = Some r.
Proof. induction bs as [|b rest IH]; intros o r; cbn [inner_loop]; [auto|]. apply andthen_more; [apply HR|intros; apply IH; assumption]. Qed.
Lemma outer_more bs : forall al o r, outer_loop rec al bs o = Some r -> outer_loop rec' al bs o = Some r.
Proof. induction al as [|a rest IH]; intros o r; cbn [outer_loop]; [auto|]. apply andthen_more; [apply inner_more|intros; apply IH; assumption]. Qed.
End More.
Lemma detect_more csx apart sph tol : forall f a b o r, detect csx apart sph tol f a b o = Some r -> detect csx apart sph tol (S f) a b o = Some r.
Proof.
  induction f as [|f IH]; intros [s1 g1] [s2 g2] o r; [discriminate|]. cbn [detect].
  change (fix detect (fuel : nat) (sg1 sg2 : nsurf * nsurf) (out : ssx_out) {struct fuel} : option (res ssx_out) := _) with (detect csx apart sph tol) in *.
  apply lift_more; intros b1. clear r. intros r. revert r. apply lift_more; intros b2 r.
  destruct (aabb_intersection b1 b2) as [b|]; [|auto]. destruct (tiny tol b1 && tiny tol b2); [auto|]. destruct (thin tol b); [auto|].
  revert r. apply lift_more; intros p1 r. revert r. apply lift_more; intros p2 r. revert r. apply lift_more; intros [|] r; [auto|].
  revert r. apply lift_more; intros [|] r; [auto|]. revert r. do 4 (apply lift_more; intros [[[? ?] ?] ?] r; revert r).
  apply outer_more. intros. apply (IH _ _ _ _ H).
Qed.

Lemma detect_more_le csx apart sph tol f f' a b o r : (f <= f')%nat -> detect csx apart sph tol f a b o = Some r -> detect csx apart sph tol f' a b o = Some r.
Proof. induction 1; [auto|]. intros E. apply detect_more. auto. Qed.

(** ** The boundary curves of a piece *)
Lemma free_isocurve_v s t c : ns_isocurve s t false = Ok c -> exists c', free_isocurve s t false = Ok c'.
Proof.
  unfold ns_isocurve, free_isocurve. destruct (_ || _)%bool; [discriminate|].
  destruct (surf_span _ _ _ _); cbn [bind]; try discriminate. destruct (basis_funs _ _ _ _ _); cbn [bind]; try discriminate.
  destruct (nc_make_size _ _) as [crv| |]; cbn [bind]; try discriminate. destruct (update_interval _); cbn [bind]; try discriminate.
  destruct (mapM _ _); cbn [bind]; try discriminate. intros _. eexists. reflexivity.
Qed.
Lemma piece_boundaries s q r : piece s q r -> exists l, free_boundaries q = Ok l.
Proof.
  intros P. destruct (piece_rect _ _ _ P) as (EU & EV & LU & LV). destruct P as ((n & m & G & _ & _ & W & IC & K & L & _) & _).
  destruct (kpiece_ends _ _ _ _ _ _ K) as (K1 & _). destruct (kpiece_ends _ _ _ _ _ _ L) as (L1 & _). destruct K as (_ & _ & _ & K2 & _). destruct L as (_ & _ & _ & L2 & _).
  assert (forall t, ulo r <= t -> t <= uhi r -> in_domain n (ns_du q) (ns_ku q) t) as DU by (intros t A B; split; rewrite ?K1, ?K2; assumption).
  assert (forall t, vlo r <= t -> t <= vhi r -> in_domain m (ns_dv q) (ns_kv q) t) as DV by (intros t A B; split; rewrite ?L1, ?L2; assumption).
  assert (forall t, ulo r <= t -> t <= uhi r -> exists c, free_isocurve q t true = Ok c) as FU.
  { intros t A B. rewrite (free_isocurve_u q n m t G IC (DU t A B)). destruct (isocurve_ok q n m t true G IC (DU t A B)) as (c & E & _). eauto. }
  assert (forall t, vlo r <= t -> t <= vhi r -> exists c, free_isocurve q t false = Ok c) as FV.
  { intros t A B. destruct (isocurve_ok q n m t false G IC (DV t A B)) as (c & E & _). eapply free_isocurve_v; exact E. }
  apply Qclt_le_weak in LU, LV.
  unfold free_boundaries. rewrite EU, EV. cbn [fst snd].
  destruct (FU (ulo r) (Qcle_refl _) LU) as (c1 & ->). destruct (FU (uhi r) LU (Qcle_refl _)) as (c2 & ->).
  destruct (FV (vlo r) (Qcle_refl _) LV) as (c3 & ->). destruct (FV (vhi r) LV (Qcle_refl _)) as (c4 & ->). cbn [bind]. eauto.
Qed.

Section Ends.
Variable csx : ncurve -> nsurf -> Qc -> res (list (vec3 * (Qc * Qc * Qc))).
Variable apart : list vec3 -> list vec3 -> res bool.
Variable sph : list vec3 -> list vec3 -> res bool.
Variable tol : Qc.
Hypothesis HC : answers_curves csx tol.
Hypothesis HA : answers_sets apart.
Hypothesis HS : answers_sets sph.

Lemma collect_runs first iv other : forall curves i pts, (forall p, In p pts -> hashable (ip_point p)) ->
  exists out, collect csx first iv other tol i curves pts = Ok out /\ forall p, In p out -> hashable (ip_point p).
Proof.
  induction curves as [|c t IH]; intros i pts H; cbn [collect]; [eauto|].
  destruct (HC c other) as (hits & -> & HH). cbn [bind]. apply IH. intros p Hp. apply in_app_iff in Hp as [Hp|Hp]; [auto|].
  apply in_map_iff in Hp as ([q [[a b] d]] & <- & Hq). exact (HH _ Hq).
Qed.
Lemma find_runs q1 q2 l1 l2 : free_boundaries q1 = Ok l1 -> free_boundaries q2 = Ok l2 -> exists out, find_boundary_intersections csx q1 q2 [] tol = Ok out.
Proof.
  intros E1 E2. unfold find_boundary_intersections. rewrite E1, E2. cbn [bind].
  destruct (collect_runs true (ns_iu q1, ns_iv q1) q2 l1 0%Z []) as (o1 & -> & A1); [intros p []|]. cbn [bind].
  destruct (collect_runs false (ns_iu q2, ns_iv q2) q1 l2 0%Z o1 A1) as (o2 & -> & A2). cbn [bind].
  apply unique_runs; [|intros v []]. intros p Hp. apply A2. apply in_rev. exact Hp.
Qed.
Lemma process_runs s1 s2 q1 q2 r1 r2 out : piece s1 q1 r1 -> piece s2 q2 r2 -> exists out', process_simple csx tol q1 q2 out = Ok out'.
Proof.
  intros P1 P2. destruct (piece_boundaries _ _ _ P1) as (l1 & E1). destruct (piece_boundaries _ _ _ P2) as (l2 & E2).
  destruct (find_runs q1 q2 l1 l2 E1 E2) as (ixs & E). unfold process_simple. rewrite E. cbn [bind].
  destruct (Nat.leb_spec 2 (length ixs)) as [L|L]; [|eauto].
  destruct (nth_error ixs 0) eqn:N0; [|apply nth_error_None in N0; lia]. destruct (nth_error ixs (length ixs - 1)) eqn:N1; [|apply nth_error_None in N1; lia].
  unfold get. rewrite N0, N1. cbn [of_option bind]. eauto.
Qed.

Variables s1 s2 g1 g2 : nsurf.
Hypothesis H1 : halvable s1.
Hypothesis H2 : halvable s2.
Hypothesis H3 : halvable g1.
Hypothesis H4 : halvable g2.

Lemma gauss_runs h1 h2 t1 t2 : piece g1 h1 t1 -> piece g2 h2 t2 -> exists b, gauss_separable sph h1 h2 = Ok b.
Proof.
  intros P1 P2. destruct (piece_flat _ _ _ P1) as (l1 & E1 & N1 & _). destruct (piece_flat _ _ _ P2) as (l2 & E2 & N2 & _).
  assert (forall l, l <> [] -> inverse_points l <> []) as NI by (intros [|x l] H; [contradiction|discriminate]).
  unfold gauss_separable. rewrite E1, E2. cbn [bind].
  destruct (HS l1 l2 N1 N2) as ([|] & ->); cbn [bind negb]; [|eauto]. destruct (HS l1 (inverse_points l2) N1 (NI _ N2)) as ([|] & ->); cbn [bind negb]; [|eauto].
  destruct (HS (inverse_points l1) (inverse_points l2) (NI _ N1) (NI _ N2)) as ([|] & ->); cbn [bind negb]; [|eauto]. apply HS; auto.
Qed.

(** an outcome: a result or the exception of the split *)
Definition ended (r : option (res ssx_out)) : Prop := (exists out, r = Some (Ok out)) \/ r = Some (Throw EInvalidArgument).
Lemma ended_then x k : ended x -> (forall o, ended (k o)) -> ended (andthen x k).
Proof. intros [(o & ->)| ->] K; cbn [andthen lift]; [apply K|right; reflexivity]. Qed.
Lemma outer_ended rec al bs : (forall a b o, In a al -> In b bs -> ended (rec a b o)) -> forall o, ended (outer_loop rec al bs o).
Proof.
  intros HR. assert (forall a, In a al -> forall l, incl l bs -> forall o, ended (inner_loop rec a l o)) as IN.
  { intros a Ha. induction l as [|b l IH]; intros I o; cbn [inner_loop]; [left; eauto|]. apply ended_then; [apply HR; [exact Ha|apply I; left; reflexivity]|].
    intros o'. apply IH. intros x Hx. apply I. right. exact Hx. }
  induction al as [|a rest IH]; intros o; cbn [outer_loop]; [left; eauto|]. apply ended_then; [apply IN; [left; reflexivity|apply incl_refl]|].
  apply IH.
  - intros; apply HR; [right|]; assumption.
  - intros; apply IN; [right|]; assumption.
Qed.

Fixpoint pow2 (n : nat) : Qc := match n with O => 1 | S k => qc 2 1 * pow2 k end.

Lemma detect_ended : forall f q1 q2 h1 h2 r1 r2 t1 t2 out, piece s1 q1 r1 -> piece s2 q2 r2 -> piece g1 h1 t1 -> piece g2 h2 t2 ->
  uhi t1 - ulo t1 <= pow2 (S f) * tol7 -> ended (detect csx apart sph tol (S f) (q1, h1) (q2, h2) out).
Proof.
  induction f as [|f IH]; intros q1 q2 h1 h2 r1 r2 t1 t2 out P1 P2 P3 P4 HW;
  (destruct (piece_bbox _ _ _ P1) as (b1 & B1 & _); destruct (piece_bbox _ _ _ P2) as (b2 & B2 & _);
   destruct (piece_flat _ _ _ P1) as (l1 & F1 & NL1 & _); destruct (piece_flat _ _ _ P2) as (l2 & F2 & NL2 & _);
   match goal with |- ended (detect _ _ _ _ (S ?f) _ _ _) => set (f0 := f) in * end; cbn [detect];
   rewrite B1, B2, F1, F2; cbn [lift];
   destruct (aabb_intersection b1 b2) as [b|]; [|left; eauto]; destruct (tiny tol b1 && tiny tol b2); [left; eauto|]; destruct (thin tol b); [left; eauto|];
   destruct (HA l1 l2 NL1 NL2) as ([|] & ->); cbn [lift]; [left; eauto|];
   destruct (gauss_runs _ _ _ _ P3 P4) as ([|] & ->); cbn [lift];
   [destruct (process_runs _ _ _ _ _ _ out P1 P2) as (o & ->); left; eauto|];
   destruct (piece_subdivide _ _ _ H1 P1) as [->|(_ & x1 & x2 & x3 & x4 & -> & Q11 & Q12 & Q13 & Q14)]; cbn [lift]; [right; reflexivity|];
   destruct (piece_subdivide _ _ _ H2 P2) as [->|(_ & y1 & y2 & y3 & y4 & -> & Q21 & Q22 & Q23 & Q24)]; cbn [lift]; [right; reflexivity|];
   destruct (piece_subdivide _ _ _ H3 P3) as [->|(W3 & z1 & z2 & z3 & z4 & -> & Q31 & Q32 & Q33 & Q34)]; cbn [lift]; [right; reflexivity|];
   destruct (piece_subdivide _ _ _ H4 P4) as [->|(_ & w1 & w2 & w3 & w4 & -> & Q41 & Q42 & Q43 & Q44)]; cbn [lift]; [right; reflexivity|]).
  - exfalso. cbn [pow2] in HW. replace (qc 2 1 * 1 * tol7) with (qc 2 1 * tol7) in HW by ring. apply (Qclt_not_le _ _ W3 HW).
  - subst f0. assert (forall z t, (z = (z1 : nsurf) \/ True) -> uhi t - ulo t = (uhi t1 - ulo t1) * qc 1 2 -> uhi t - ulo t <= pow2 (S f) * tol7) as HALF.
    { intros _ t _ E. rewrite E. assert (pow2 (S (S f)) * tol7 = qc 2 1 * (pow2 (S f) * tol7)) as E' by (cbn [pow2]; ring).
      rewrite E' in HW. set (Y := pow2 (S f) * tol7) in *. clearbody Y. qc_lra. }
    apply outer_ended. intros [a ga] [c gc] o Ha Hc.
    assert (exists r t, piece s1 a r /\ piece g1 ga t /\ uhi t - ulo t <= pow2 (S f) * tol7) as (ra & ta & Pa & Pga & Wa).
    { destruct Ha as [Ha|[Ha|[Ha|[Ha|[]]]]]; injection Ha as <- <-; eexists; eexists; (split; [eassumption|]; split; [eassumption|]; apply (HALF z1); [auto|]; cbn [uhi ulo]; qc_lra). }
    assert (exists r t, piece s2 c r /\ piece g2 gc t) as (rc & tc & Pc & Pgc).
    { destruct Hc as [Hc|[Hc|[Hc|[Hc|[]]]]]; injection Hc as <- <-; eauto. }
    eapply IH; eassumption.
Qed.
End Ends.
