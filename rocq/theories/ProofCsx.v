(** Curve-surface intersection: what is reported, and when the search ends. *)
From Coq Require Import List ZArith QArith Qcanon Bool Lia Lqa.
From Verif Require Import Base BaseFacts LoopFacts ModelVec ModelAabb SpecAabb ProofAabb ModelNurbs ModelSurface ModelCsx SpecNurbs SpecCurve SpecSurface SpecCcx SpecGjk SpecCsx
  ProofBspline ProofNurbs ProofCurve ProofNurbsTop ProofMinimize ProofDecompose ProofCcx ProofPolygon
  ProofSurfaceSums ProofSurface ProofSurfaceOps ProofSurfaceTop ProofCsxPieces.
Import ListNotations.
Open Scope Qc_scope.

Lemma kpiece_start answer n p U : valid_knots n p U -> cuttable_knots answer n p U -> kpiece U U n p (knot U 0) (knot U (n + 1)).
Proof.
  intros V (C & P & M & _). pose proof V as (V1 & V2 & V3 & V4). pose proof (sorted_mono _ V3) as S.
  split; [exact V|]. split; [exact C|]. split; [reflexivity|]. split; [reflexivity|]. split; [|exact M].
  intros x Hx. destruct (In_nth _ _ 0 Hx) as (i & Hi & Ei). rewrite <- knot_nth in Ei by lia.
  destruct (Qc_eq_dec x (knot U 0)) as [|N0]; [auto|]. destruct (Qc_eq_dec x (knot U (n + 1))) as [|N1]; [auto|].
  right; right. split; [exact Hx|]. destruct C as [C1 C2]. split.
  - assert (knot U 0 <= x) as L by (rewrite <- Ei; apply S; lia). apply Qcle_lt_or_eq in L. destruct L; [assumption|congruence].
  - assert (x <= knot U (n + 1)) as L.
    { rewrite <- Ei. rewrite <- (C2 (n + p + 1)%nat) by lia. apply S; lia. }
    apply Qcle_lt_or_eq in L. destruct L; [assumption|congruence].
Qed.
Lemma cpiece_start answer c : cuttable_curve answer c -> (1 <= nc_degree c)%nat /\ cpiece c c (fst (nc_interval c)) (snd (nc_interval c)) /\
  (forall lo hi t, cut_down answer (fst (nc_interval c)) (snd (nc_interval c)) lo hi -> cut_at answer lo hi t -> clear_of (nc_knots c) lo hi t).
Proof.
  intros (n & G & W & I & K). pose proof G as (L & V & H8). pose proof (kpiece_start _ _ _ _ V K) as KP.
  destruct (kpiece_ends _ _ _ _ _ _ KP) as (E1 & E2 & E3). assert (nc_interval c = (knot (nc_knots c) 0, knot (nc_knots c) (n + 1))) as EI by (rewrite I; exact E3).
  rewrite EI. cbn [fst snd]. pose proof K as (C & P & M & CL). split; [exact P|]. split.
  - exists n. do 4 (split; [assumption || reflexivity|]). split; [exact KP|].
    intros u U1 U2. destruct (hull_top c n u G) as (pt & X & _); [split; [rewrite E1|]; assumption|apply unit_positive; exact W|]. eauto.
  - intros lo hi t A B k Hk L1 L2. apply (CL lo hi t k); assumption.
Qed.
Lemma spiece_start au av s : cuttable_surf au av s -> (1 <= ns_du s)%nat /\ (1 <= ns_dv s)%nat /\
  spiece s s (fst (ns_iu s)) (snd (ns_iu s)) (fst (ns_iv s)) (snd (ns_iv s)) /\
  (forall lo hi t, cut_down au (fst (ns_iu s)) (snd (ns_iu s)) lo hi -> cut_at au lo hi t -> clear_of (ns_ku s) lo hi t) /\
  (forall lo hi t, cut_down av (fst (ns_iv s)) (snd (ns_iv s)) lo hi -> cut_at av lo hi t -> clear_of (ns_kv s) lo hi t).
Proof.
  intros (n & m & G & W & I & K & L). pose proof G as (_ & _ & _ & _ & VU & VV & _). pose proof I as (IU & IV).
  pose proof (kpiece_start _ _ _ _ VU K) as KP. pose proof (kpiece_start _ _ _ _ VV L) as LP.
  destruct (kpiece_ends _ _ _ _ _ _ KP) as (E1 & E2 & E3). destruct (kpiece_ends _ _ _ _ _ _ LP) as (F1 & F2 & F3).
  assert (ns_iu s = (knot (ns_ku s) 0, knot (ns_ku s) (n + 1))) as EU by (rewrite IU; exact E3).
  assert (ns_iv s = (knot (ns_kv s) 0, knot (ns_kv s) (m + 1))) as EV by (rewrite IV; exact F3).
  rewrite EU, EV. cbn [fst snd]. pose proof K as (C & P & M & CL). pose proof L as (C' & P' & M' & CL').
  split; [exact P|]. split; [exact P'|]. split; [|split].
  - exists n, m. do 5 (split; [assumption || reflexivity|]). split; [exact KP|]. split; [exact LP|].
    intros u v U1 U2 V1 V2. eexists. rewrite (evaluate_positive_surf s n m); [split; reflexivity|exact G| |exact W].
    split; split; rewrite ?E1, ?F1; assumption.
  - intros lo hi t A B k Hk L1 L2. apply (CL lo hi t k); assumption.
  - intros lo hi t A B k Hk L1 L2. apply (CL' lo hi t k); assumption.
Qed.

(** ** The points of the pieces *)
Lemma points3d_ok c q lo hi : cpiece c q lo hi -> exists l, points3d q = Ok l /\ l <> [].
Proof.
  intros (m & (L & _) & _ & W & _). unfold points3d. exists (map affine (nc_cps q)). split.
  - apply mapM_map. intros x Hx. apply to_vec3_affine. rewrite (W x Hx). reflexivity.
  - intros E. apply map_eq_nil in E. rewrite E in L. discriminate.
Qed.
Lemma flat3d_ok s q a b d e : spiece s q a b d e -> exists l, flat3d q = Ok l /\ l <> [].
Proof.
  intros (n & m & G & _ & _ & W & _). unfold flat3d. rewrite (flat_points_ok _ n m G). cbn [bind].
  eexists. split.
  - apply (mapM_map _ affine). intros x Hx. apply to_vec3_affine. apply in_map_iff in Hx. destruct Hx as (k & <- & Hk). apply in_seq in Hk.
    apply (positive_cp q n m G W).
    + apply Nat.div_lt_upper_bound; lia.
    + apply Nat.mod_upper_bound. lia.
  - rewrite map_map. intros E. apply map_eq_nil in E. discriminate.
Qed.
Lemma aabb_test_ok l1 l2 : l1 <> [] -> l2 <> [] -> exists b, aabb_test l1 l2 = Ok b.
Proof. intros H1 H2. destruct l1; [congruence|]. destruct l2; [congruence|]. eexists. reflexivity. Qed.

(** ** Outcomes *)
Section Outcome.
(** [N]: running out of fuel allowed; [X]: the exceptions allowed, None for UB *)
Variable N : Prop.
Variable X : option exn -> Prop.
Definition allowed {A} (r : res A) : Prop := match r with Ok _ => True | Throw e => X (Some e) | UB => X None end.
Variable H : csx_int -> Prop.
Definition outcome (hits : list csx_int) (r : option (res (list csx_int))) : Prop :=
  match r with
  | None => N
  | Some (Ok out) => exists new, out = hits ++ new /\ forall h, In h new -> H h
  | Some (Throw e) => X (Some e)
  | Some UB => X None
  end.

Lemma outcome_lift {A} hits (r : res A) k : allowed r -> (forall a, r = Ok a -> outcome hits (k a)) -> outcome hits (lift r k).
Proof. intros A1 A2. destruct r; cbn [lift outcome]; auto. Qed.
Lemma outcome_then hits r k : outcome hits r -> (forall hits', outcome hits' (k hits')) -> outcome hits (andthen r k).
Proof.
  intros A1 A2. destruct r as [[out|e|]|]; cbn [andthen lift outcome] in *; auto. destruct A1 as (new & -> & HN).
  specialize (A2 (hits ++ new)). destruct (k (hits ++ new)) as [[out|e|]|]; cbn [outcome] in *; auto.
  destruct A2 as (new' & -> & HN'). exists (new ++ new'). split; [rewrite app_assoc; reflexivity|].
  intros h Hh. apply in_app_iff in Hh. destruct Hh; auto.
Qed.
Lemma outcome_same hits : outcome hits (Some (Ok hits)).
Proof. exists []. split; [rewrite app_nil_r; reflexivity|intros h []]. Qed.
Lemma outcome_app hits h r : H h -> outcome (hits ++ [h]) r -> outcome hits r.
Proof.
  intros Hh. destruct r as [[out|e|]|]; cbn [outcome]; auto. intros (new & -> & HN). exists (h :: new).
  split; [rewrite <- app_assoc; reflexivity|]. intros x [<-|Hx]; auto.
Qed.
End Outcome.

Definition rel_hit (R : vec3 -> vec3 -> Prop) (c : ncurve) (s : nsurf) (h : csx_int) : Prop :=
  let '(_, p, (t, u, v)) := h in
  within (nc_interval c) t /\ within (ns_iu s) u /\ within (ns_iv s) v /\
  evaluate c t = Ok p /\ exists q, ns_evaluate s u v = Ok q /\ R p q.

Section Main.
Variable len : vec3 -> option Qc.
Variable newton : ncurve -> nsurf -> res params.
Variable degenerate : ncurve -> nsurf -> params -> res bool.
Variable apart : list vec3 -> list vec3 -> res bool.
Variable separable : vec3 -> list vec3 -> list vec3 -> res bool.
Variables tol ptol : Qc.
Variable R : vec3 -> vec3 -> Prop.
Variables (c : ncurve) (s : nsurf).
Hypothesis HC : cuttable_curve (answers_t newton) c.
Hypothesis HS : cuttable_surf (answers_u newton) (answers_v newton) s.
Hypothesis HR : forall a b l, len (v3sub a b) = Some l -> l <= tol -> R a b.
Variable N : Prop.
Variable X : option exn -> Prop.
Hypothesis XN : forall c s, allowed X (newton c s).
Hypothesis XD : forall c s p, allowed X (degenerate c s p).
Hypothesis XA : forall a b, a <> [] -> b <> [] -> allowed X (apart a b).
Hypothesis XS : forall p a b, allowed X (separable p a b).
(** exceptions of the splits are allowed, or there are none *)
Hypothesis XT : X (Some EInvalidArgument) \/
  (tol7 < ptol /\ forall q w t u v, newton q w = Ok (t, u, v) -> valid_parameter (t, u, v) q w = true ->
     tol12 < t - fst (nc_interval q) /\ tol12 < snd (nc_interval q) - t).

Definition inv (q : ncurve) (w : nsurf) (ul uh : Qc) : Prop := exists lo hi vl vh,
  cpiece c q lo hi /\ spiece s w ul uh vl vh /\
  cut_down (answers_t newton) (fst (nc_interval c)) (snd (nc_interval c)) lo hi /\
  cut_down (answers_u newton) (fst (ns_iu s)) (snd (ns_iu s)) ul uh /\
  cut_down (answers_v newton) (fst (ns_iv s)) (snd (ns_iv s)) vl vh.

Lemma cut_inside answer a b lo hi : cut_down answer a b lo hi -> a < b -> a <= lo /\ hi <= b /\ lo < hi.
Proof.
  induction 1 as [|lo hi t D IH (T1 & T2 & _)|lo hi t D IH (T1 & T2 & _)]; intros L.
  - split; [apply Qcle_refl|]. split; [apply Qcle_refl|exact L].
  - destruct (IH L) as (A & B & _). split; [exact A|]. split; [|exact T1]. apply Qcle_trans with hi; [apply Qclt_le_weak; exact T2|exact B].
  - destruct (IH L) as (A & B & _). split; [|split; [exact B|exact T2]]. apply Qcle_trans with lo; [exact A|apply Qclt_le_weak; exact T1].
Qed.

Lemma near_false x a : near_to ptol x a = false -> ptol <= Qcabs (x - a).
Proof. unfold near_to. intros E. qcb. apply Qcnot_lt_le. intros L. qc_lra. Qed.

Lemma bfs_ineq (a b : Qc) : a <> b -> a <= b -> a < b.
Proof. intros A B. apply Qcle_lt_or_eq in B. destruct B; [assumption|contradiction]. Qed.

(** splitting both at (t, u, v) *)
Lemma inv_split {K : Prop} q w ul uh t u v (k : ncurve -> ncurve -> nsurf -> nsurf -> nsurf -> nsurf -> option (res (list csx_int))) hits (Hh : csx_int -> Prop) :
  inv q w ul uh ->
  valid_parameter (t, u, v) q w = true ->
  (t = (fst (nc_interval q) + snd (nc_interval q)) * qc 1 2 \/ answers_t newton t) ->
  (u = (fst (ns_iu w) + snd (ns_iu w)) * qc 1 2 \/ answers_u newton u) ->
  (v = (fst (ns_iv w) + snd (ns_iv w)) * qc 1 2 \/ answers_v newton v) ->
  (X (Some EInvalidArgument) \/ (tol12 < t - fst (nc_interval q) /\ tol12 < snd (nc_interval q) - t /\
     tol7 < u - fst (ns_iu w) /\ tol7 < snd (ns_iu w) - u /\ tol7 < v - fst (ns_iv w) /\ tol7 < snd (ns_iv w) - v)) ->
  (forall a b s1 s2 s3 s4, tol7 < u - ul -> tol7 < uh - u ->
     inv a s1 ul u -> inv a s2 ul u -> inv a s3 u uh -> inv a s4 u uh -> inv b s1 ul u -> inv b s2 ul u -> inv b s3 u uh -> inv b s4 u uh ->
     outcome N X Hh hits (k a b s1 s2 s3 s4)) ->
  outcome N X Hh hits (lift (nc_split q t false) (fun cc => let '(c1, c2) := cc in
    lift (ns_subdivide_at w u v) (fun ss => let '(s1, s2, s3, s4) := ss in k c1 c2 s1 s2 s3 s4))).
Proof.
  intros (lo & hi & vl & vh & CP & SP & D1 & D2 & D3) VP HT HU HV SAFE HK.
  destruct (cpiece_start _ _ HC) as (P1 & _ & CL1). destruct (spiece_start _ _ _ HS) as (P2 & P3 & _ & CL2 & CL3).
  destruct (cpiece_interval _ _ _ _ CP) as (EI & LT). destruct (spiece_interval _ _ _ _ _ _ SP) as (EU & EV & LU & LV).
  unfold valid_parameter in VP. rewrite EI, EU, EV in *. cbn [fst snd] in *. rewrite !andb_true_iff in VP.
  destruct VP as (((((T1 & T2) & U1) & U2) & V1) & V2). qcb.
  pose proof tol12_pos as TP. pose proof tol7_pos as TP7.
  (* strictly inside or the split throws *)
  assert (clear_of (nc_knots c) lo hi t \/ t = lo \/ t = hi) as CT.
  { destruct (Qc_eq_dec t lo) as [|NE]; [auto|]. destruct (Qc_eq_dec t hi) as [|NE']; [auto|]. left.
    apply CL1; [exact D1|]. split; [apply bfs_ineq; auto|]. split; [apply bfs_ineq; auto|exact HT]. }
  assert (clear_of (ns_ku s) ul uh u \/ u = ul \/ u = uh) as CU.
  { destruct (Qc_eq_dec u ul) as [|NE]; [auto|]. destruct (Qc_eq_dec u uh) as [|NE']; [auto|]. left.
    apply CL2; [exact D2|]. split; [apply bfs_ineq; auto|]. split; [apply bfs_ineq; auto|exact HU]. }
  assert (clear_of (ns_kv s) vl vh v \/ v = vl \/ v = vh) as CV.
  { destruct (Qc_eq_dec v vl) as [|NE]; [auto|]. destruct (Qc_eq_dec v vh) as [|NE']; [auto|]. left.
    apply CL3; [exact D3|]. split; [apply bfs_ineq; auto|]. split; [apply bfs_ineq; auto|exact HV]. }
  assert ((nc_split q t false = Throw EInvalidArgument /\ (t - lo <= tol12 \/ hi - t <= tol12)) \/
    (tol12 < t - lo /\ tol12 < hi - t /\ exists a b, nc_split q t false = Ok (a, b) /\ cpiece c a lo t /\ cpiece c b t hi)) as CASE.
  { destruct CT as [CT|CT]; [apply cpiece_split; assumption|]. left. split.
    - eapply split_near; [exact EI|exact T1|exact T2|]. destruct CT as [->| ->]; [left|right]; qc_lra.
    - destruct CT as [->| ->]; [left|right]; qc_lra. }
  destruct CASE as [[E NE]|(A1 & A2 & a & b & E & Pa & Pb)]; rewrite E; cbn [lift].
  { destruct SAFE as [SAFE|(SA & SB & _)]; [exact SAFE|]. exfalso. destruct NE; qc_lra. }
  assert ((ns_subdivide_at w u v = Throw EInvalidArgument /\ (u - ul <= tol7 \/ uh - u <= tol7 \/ v - vl <= tol7 \/ vh - v <= tol7)) \/
    (tol7 < u - ul /\ tol7 < uh - u /\ tol7 < v - vl /\ tol7 < vh - v /\
     exists s1 s2 s3 s4, ns_subdivide_at w u v = Ok (s1, s2, s3, s4) /\
     spiece s s1 ul u vl v /\ spiece s s2 ul u v vh /\ spiece s s3 u uh vl v /\ spiece s s4 u uh v vh)) as CASE.
  { destruct CU as [CU|CU].
    - destruct CV as [CV|CV].
      + apply spiece_subdivide; assumption.
      + destruct (spiece_split_u s w ul uh vl vh u) as [[E' N']|(B1 & B2 & s1 & s2 & E' & Q1 & Q2)]; try assumption.
        * left. unfold ns_subdivide_at. fold tol7. rewrite E'. split; [reflexivity|tauto].
        * left. unfold ns_subdivide_at. fold tol7. rewrite E'. cbn [bind]. split.
          -- destruct (spiece_interval _ _ _ _ _ _ Q1) as (_ & EV1 & _). unfold ns_split_v. rewrite EV1.
             rewrite edge_near; [reflexivity|apply Qclt_le_weak; exact TP7|exact V1|exact V2|]. cbn [fst snd]. destruct CV as [->| ->]; [left|right]; qc_lra.
          -- right; right. destruct CV as [->| ->]; [left|right]; qc_lra.
    - left. split.
      + unfold ns_subdivide_at, ns_split_u. rewrite EU. rewrite edge_near; [reflexivity|apply Qclt_le_weak; exact TP7|exact U1|exact U2|].
        cbn [fst snd]. fold tol7. destruct CU as [->| ->]; [left|right]; qc_lra.
      + destruct CU as [->| ->]; [left|right; left]; qc_lra. }
  destruct CASE as [[E' NE]|(B1 & B2 & B3 & B4 & s1 & s2 & s3 & s4 & E' & Q1 & Q2 & Q3 & Q4)]; rewrite E'; cbn [lift].
  { destruct SAFE as [SAFE|(SA & SB & SC & SD & SE & SF)]; [exact SAFE|]. exfalso. destruct NE as [NE|[NE|[NE|NE]]]; qc_lra. }
  assert (cut_at (answers_t newton) lo hi t) as KT by (split; [qc_lra|]; split; [qc_lra|exact HT]).
  assert (cut_at (answers_u newton) ul uh u) as KU by (split; [qc_lra|]; split; [qc_lra|exact HU]).
  assert (cut_at (answers_v newton) vl vh v) as KV by (split; [qc_lra|]; split; [qc_lra|exact HV]).
  pose proof (cut_left _ _ _ _ _ _ D1 KT) as X1. pose proof (cut_right _ _ _ _ _ _ D1 KT) as X2.
  pose proof (cut_left _ _ _ _ _ _ D2 KU) as X3. pose proof (cut_right _ _ _ _ _ _ D2 KU) as X4.
  pose proof (cut_left _ _ _ _ _ _ D3 KV) as X5. pose proof (cut_right _ _ _ _ _ _ D3 KV) as X6.
  apply HK; [exact B1|exact B2|..]; do 4 eexists; repeat split; try eassumption.
Qed.

Lemma loop_outcome Hh rec point c1 c2 : (exists lo hi, cpiece c c1 lo hi) -> (exists lo hi, cpiece c c2 lo hi) ->
  forall patches hits,
  (forall w, In w patches -> (exists a b d e, spiece s w a b d e) /\ (forall hits, outcome N X Hh hits (rec c1 w hits)) /\ (forall hits, outcome N X Hh hits (rec c2 w hits))) ->
  outcome N X Hh hits (csx_loop separable rec point c1 c2 patches hits).
Proof.
  intros (l1 & h1 & C1) (l2 & h2 & C2). destruct (points3d_ok _ _ _ _ C1) as (p1 & E1 & _). destruct (points3d_ok _ _ _ _ C2) as (p2 & E2 & _).
  induction patches as [|w rest IH]; intros hits HW; cbn [csx_loop]; [apply outcome_same|].
  destruct (HW w (or_introl eq_refl)) as ((a & b & d & e & SP) & R1 & R2). destruct (flat3d_ok _ _ _ _ _ _ SP) as (pw & EW & _).
  assert (forall hits, outcome N X Hh hits (csx_loop separable rec point c1 c2 rest hits)) as IH' by (intros; apply IH; intros; apply HW; right; assumption).
  rewrite E1, EW. cbn [lift]. apply outcome_lift; [apply XS|]. intros [|] _; [apply IH'|].
  apply outcome_then; [apply R1|]. intros hits'. rewrite E2. cbn [lift]. apply outcome_lift; [apply XS|]. intros [|] _; [apply IH'|].
  apply outcome_then; [apply R2|exact IH'].
Qed.

Lemma rec_outcome : forall fuel q w ul uh hits, inv q w ul uh -> N \/ uh - ul <= Qc_of_nat fuel * tol7 ->
  outcome N X (rel_hit R c s) hits (csx_rec len newton degenerate apart separable tol ptol fuel q w hits).
Proof.
  induction fuel as [|f IH]; intros q w ul uh hits HI HF.
  { cbn [csx_rec outcome]. destruct HF as [HF|HF]; [exact HF|]. exfalso.
    destruct HI as (lo & hi & vl & vh & _ & SP & _). destruct (spiece_interval _ _ _ _ _ _ SP) as (_ & _ & LU & _).
    change (Qc_of_nat 0) with 0 in HF. rewrite Qcmult_0_l in HF. qc_lra. }
  cbn [csx_rec]. destruct (short ptol (nc_interval q) || short ptol (ns_iu w) || short ptol (ns_iv w)) eqn:SH; [apply outcome_same|].
  pose proof HI as (lo & hi & vl & vh & CP & SP & D1 & D2 & D3).
  destruct (cpiece_interval _ _ _ _ CP) as (EI & LT). destruct (spiece_interval _ _ _ _ _ _ SP) as (EU & EV & LU & LV).
  destruct (points3d_ok _ _ _ _ CP) as (p1 & E1 & NE1). destruct (flat3d_ok _ _ _ _ _ _ SP) as (p2 & E2 & NE2).
  destruct (aabb_test_ok p1 p2 NE1 NE2) as (bb & EB).
  assert (forall a b x y, inv a b x y -> y - x <= uh - ul - tol7 -> forall hits, outcome N X (rel_hit R c s) hits (csx_rec len newton degenerate apart separable tol ptol f a b hits)) as REC.
  { intros a b x y HI' LE hits'. apply (IH _ _ x y); [exact HI'|]. destruct HF as [HF|HF]; [left; exact HF|right].
    assert (Qc_of_nat (S f) * tol7 = Qc_of_nat f * tol7 + tol7) as ES.
    { assert (Qc_of_nat (S f) = Qc_of_nat f + 1) as ->; [|ring]. unfold Qc_of_nat, Qc_of_Z. apply Qc_is_canon. rewrite this_plus. rewrite !this_Q2Qc. change (this 1) with (1 # 1)%Q. unfold inject_Z. rewrite Nat2Z.inj_succ. unfold Z.succ. unfold Qplus, Qeq. cbn. lia. }
    rewrite ES in HF. clear - HF LE. qc_lra. }
  unfold no_new. rewrite E1, E2. cbn [bind]. rewrite EB. cbn [bind].
  apply outcome_lift. { destruct bb; [exact I|apply XA; assumption]. } intros none _. destruct none; [apply outcome_same|].
  destruct (cpiece_start _ _ HC) as (_ & _ & _). 
  assert (forall found, find_new len newton tol q w = Ok found -> match found with None => True | Some (p, (t, u, v)) =>
     newton q w = Ok (t, u, v) /\ valid_parameter (t, u, v) q w = true /\ evaluate q t = Ok p /\ exists b l, ns_evaluate w u v = Ok b /\ len (v3sub p b) = Some l /\ l <= tol end) as FOUND.
  { intros found. unfold find_new. destruct (newton q w) as [[[t u] v]| |] eqn:EN; cbn [bind]; try discriminate.
    destruct (valid_parameter (t, u, v) q w) eqn:VP; [|intros Q; assert (found = None) as -> by congruence; exact I].
    destruct (evaluate q t) as [a| |] eqn:EA; cbn [bind]; try discriminate.
    destruct (ns_evaluate w u v) as [b| |] eqn:EB'; cbn [bind]; try discriminate.
    destruct (len (v3sub a b)) as [l|] eqn:EL; [|intros Q; assert (found = None) as -> by congruence; exact I].
    destruct (Qcleb_spec l tol) as [LE|GT]; [|intros Q; assert (found = None) as -> by congruence; exact I].
    intros Q. apply Ok_inj in Q. subst found. repeat split; try assumption. exists b, l. auto. }
  assert (allowed X (find_new len newton tol q w)) as AF.
  { unfold find_new. pose proof (XN q w) as XN'. destruct (newton q w) as [[[t u] v]| |] eqn:EN; cbn [bind allowed] in *; try assumption.
    destruct (valid_parameter (t, u, v) q w) eqn:VP; [|exact I].
    unfold valid_parameter in VP. rewrite EI, EU, EV in VP. cbn [fst snd] in VP. rewrite !andb_true_iff in VP.
    destruct VP as (((((T1 & T2) & U1) & U2) & V1) & V2). qcb.
    destruct CP as (m & _ & _ & _ & _ & _ & HE). destruct (HE t T1 T2) as (pt & Z1 & _). rewrite Z1. cbn [bind].
    destruct SP as (n1 & m1 & _ & _ & _ & _ & _ & _ & _ & HE'). destruct (HE' u v U1 U2 V1 V2) as (pt' & Z2 & _). rewrite Z2. cbn [bind].
    destruct (len (v3sub pt pt')); exact I. }
  apply outcome_lift; [exact AF|]. intros found EF. specialize (FOUND _ EF).
  destruct (at_border ptol w ((fst (ns_iu w) + snd (ns_iu w)) * qc 1 2) ((fst (ns_iv w) + snd (ns_iv w)) * qc 1 2)) eqn:AB; [apply outcome_same|].
  unfold at_border in AB. rewrite !orb_false_iff in AB. destruct AB as (((AB1 & AB2) & AB3) & AB4).
  apply near_false in AB1, AB2, AB3, AB4. rewrite !orb_false_iff in SH. destruct SH as ((SH1 & _) & _).
  unfold short in SH1. assert (ptol <= Qcabs (snd (nc_interval q) - fst (nc_interval q))) as SH1' by (qcb; apply Qcnot_lt_le; intros Z; qc_lra).
  clear SH1. rewrite EI in SH1'. rewrite EU in AB1, AB2. rewrite EV in AB3, AB4. cbn [fst snd] in *.
  pose proof tol12_7 as T127. pose proof tol7_pos as TP7.
  destruct found as [[p [[t u] v]]|].
  - destruct FOUND as (EN & VP & EP & b & l & ES & EL & LE). apply outcome_lift; [apply XD|]. intros d _.
    pose proof VP as VP'. unfold valid_parameter in VP'. rewrite EI, EU, EV in VP'. cbn [fst snd] in VP'. rewrite !andb_true_iff in VP'.
    destruct VP' as (((((T1 & T2) & U1) & U2) & V1) & V2). qcb.
    apply outcome_app with (d, p, (t, u, v)).
    { destruct CP as (m & _ & _ & _ & _ & _ & HE). destruct (HE t T1 T2) as (pt & Z1 & Z1').
      destruct SP as (n1 & m1 & _ & _ & _ & _ & _ & _ & _ & HE'). destruct (HE' u v U1 U2 V1 V2) as (pt' & Z2 & Z2').
      destruct (cpiece_start _ _ HC) as (_ & CP0 & _). destruct (spiece_start _ _ _ HS) as (_ & _ & SP0 & _).
      destruct (cpiece_interval _ _ _ _ CP0) as (_ & LT0). destruct (spiece_interval _ _ _ _ _ _ SP0) as (_ & _ & LU0 & LV0).
      destruct (cut_inside _ _ _ _ _ D1 LT0) as (I1 & I2 & _). destruct (cut_inside _ _ _ _ _ D2 LU0) as (I3 & I4 & _). destruct (cut_inside _ _ _ _ _ D3 LV0) as (I5 & I6 & _).
      unfold rel_hit, within. split; [split; eapply Qcle_trans; eassumption|]. split; [split; eapply Qcle_trans; eassumption|].
      split; [split; eapply Qcle_trans; eassumption|]. split; [congruence|]. exists b. split; [congruence|]. eapply HR; eassumption. }
    destruct (at_border ptol w u v) eqn:AB; [apply outcome_same|].
    unfold at_border in AB. rewrite !orb_false_iff in AB. destruct AB as (((BB1 & BB2) & BB3) & BB4).
    apply near_false in BB1, BB2, BB3, BB4. rewrite EU in BB1, BB2. rewrite EV in BB3, BB4. cbn [fst snd] in *.
    eapply (inv_split (K := True) q w ul uh t u v (fun c1 c2 s1 s2 s3 s4 => csx_loop separable (csx_rec len newton degenerate apart separable tol ptol f) p c1 c2 [s1; s2; s3; s4] (hits ++ [(d, p, (t, u, v))]))).
    + exact HI.
    + exact VP.
    + right. unfold answers_t. eauto 10.
    + right. unfold answers_u. eauto 10.
    + right. unfold answers_v. eauto 10.
    + destruct XT as [XT'|(G7 & INN)]; [left; exact XT'|]. right. destruct (INN _ _ _ _ _ EN VP) as (IN1 & IN2).
      split; [exact IN1|]. split; [exact IN2|]. rewrite EU, EV. cbn [fst snd].
      clear - BB1 BB2 BB3 BB4 G7 U1 U2 V1 V2.
      repeat match goal with Z : ptol <= Qcabs ?x |- _ => destruct (Qcabs_cases x) as [[? ?Q]|[? ?Q]]; rewrite ?Q in Z; clear Q end; repeat split; qc_lra.
    + intros a b0 s1 s2 s3 s4 L1 L2 Q1 Q2 Q3 Q4 Q5 Q6 Q7 Q8. apply loop_outcome.
      * destruct Q1 as (? & ? & ? & ? & Z & _). eauto.
      * destruct Q5 as (? & ? & ? & ? & Z & _). eauto.
      * assert (u - ul <= uh - ul - tol7) by qc_lra. assert (uh - u <= uh - ul - tol7) by qc_lra.
        intros w' [<-|[<-|[<-|[<-|[]]]]]; (split; [|split; eapply REC; eassumption]).
        -- destruct Q1 as (? & ? & ? & ? & _ & Z & _). eauto 10.
        -- destruct Q2 as (? & ? & ? & ? & _ & Z & _). eauto 10.
        -- destruct Q3 as (? & ? & ? & ? & _ & Z & _). eauto 10.
        -- destruct Q4 as (? & ? & ? & ? & _ & Z & _). eauto 10.
  - eapply (inv_split (K := True) q w ul uh _ _ _ (fun c1 c2 s1 s2 s3 s4 =>
      andthen (csx_rec len newton degenerate apart separable tol ptol f c1 s1 hits) (fun hits => andthen (csx_rec len newton degenerate apart separable tol ptol f c1 s2 hits) (fun hits =>
      andthen (csx_rec len newton degenerate apart separable tol ptol f c1 s3 hits) (fun hits => andthen (csx_rec len newton degenerate apart separable tol ptol f c1 s4 hits) (fun hits =>
      andthen (csx_rec len newton degenerate apart separable tol ptol f c2 s1 hits) (fun hits => andthen (csx_rec len newton degenerate apart separable tol ptol f c2 s2 hits) (fun hits =>
      andthen (csx_rec len newton degenerate apart separable tol ptol f c2 s3 hits) (fun hits => csx_rec len newton degenerate apart separable tol ptol f c2 s4 hits))))))))).
    + exact HI.
    + rewrite EI, EU, EV. cbn [fst snd]. unfold valid_parameter. rewrite EI, EU, EV. cbn [fst snd]. rewrite !andb_true_iff.
      repeat split; qcb; clear - LT LU LV; qc_lra.
    + left. rewrite EI. cbn [fst snd]. ring.
    + left. rewrite EU. reflexivity.
    + left. rewrite EV. reflexivity.
    + destruct XT as [XT'|(G7 & _)]; [left; exact XT'|]. right. rewrite EI, EU, EV. cbn [fst snd].
      assert (tol7 < hi - lo) as A1 by (destruct (Qcabs_cases (hi - lo)) as [[? Q]|[? Q]]; rewrite Q in SH1'; qc_lra).
      clear SH1'. assert (0 < tol7) as A2 by exact TP7. assert (tol12 + tol12 < tol7) as A3 by reflexivity.
      split; [clear - A1 A3; qc_lra|]. split; [clear - A1 A3; qc_lra|].
      clear - AB1 AB2 AB3 AB4 G7 LU LV.
      repeat match goal with Z : ptol <= Qcabs ?x |- _ => destruct (Qcabs_cases x) as [[? ?Q]|[? ?Q]]; rewrite ?Q in Z; clear Q end; repeat split; qc_lra.
    + rewrite EU. cbn [fst snd]. intros a b s1 s2 s3 s4 L1 L2 Q1 Q2 Q3 Q4 Q5 Q6 Q7 Q8.
      set (u := (ul + uh) * qc 1 2) in *.
      assert (u - ul <= uh - ul - tol7) by (clearbody u; qc_lra). assert (uh - u <= uh - ul - tol7) by (clearbody u; qc_lra).
      repeat (apply outcome_then; [eapply REC; eassumption|intros ?]). eapply REC; eassumption.
Qed.
End Main.
