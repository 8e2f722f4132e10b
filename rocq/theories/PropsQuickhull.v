(** The convex hull of points in space by quickhull. [lower] is the value of the
    member lower_dimensional_hull_, which the constructor does not set; [hull] is
    the content of the result vector before the call. *)
From Coq Require Import List ZArith Reals Lra Lia.
From Verif Require Import Base ModelPlane ModelQuickhull SpecQuickhull ProofQuickhull WitnessQuickhull.
Import ListNotations.
Local Open Scope R_scope.

(** C218: for points on a grid of spacing 1/k, no four of them on a plane, the
    points added are the extreme points, each once, and every point is in their
    hull *)
Theorem C218_extreme_points_partial :
  forall k M pts hull, (0 < k)%Z -> 1 <= M -> 16 * IZR k ^ 3 * M ^ 2 < 2 ^ 52 -> (forall p, In p pts -> on_grid k M p) -> no_four_coplanar pts -> (5 <= length pts)%nat ->
  exists found, convex_hull3d false pts hull = Ok (hull ++ found) /\ NoDup found /\ (forall p, In p found <-> extreme pts p) /\ (forall p, In p pts -> in_hullr found p).
Proof. exact hull3d_extreme. Qed.
Print Assumptions C218_extreme_points_partial.

(** six points, one of them inside *)
Example C218_hypotheses : (forall p, In p (units six) -> on_grid 1 8 p) /\ no_four_coplanar (units six) /\ 16 * IZR 1 ^ 3 * 8 ^ 2 < 2 ^ 52 /\ (5 <= length (units six))%nat.
Proof. split; [exact six_grid|]. split; [exact six_general|]. split; [rewrite pow52; lra|cbn; lia]. Qed.
Example C218_six : forall hull, exists found, convex_hull3d false (units six) hull = Ok (hull ++ found) /\ NoDup found /\ forall p, In p found <-> In p (units five).
Proof. exact six_run. Qed.

(** without the condition on four points: the points added are different input
    points on the boundary, among them all extreme points, and every input point
    is in their hull; only points on one plane are excluded *)
Theorem C218_cover_partial :
  forall k M pts hull, (0 < k)%Z -> 1 <= M -> 16 * IZR k ^ 3 * M ^ 2 < 2 ^ 52 -> (forall p, In p pts -> on_grid k M p) -> ~ on_one_plane pts -> (5 <= length pts)%nat ->
  exists found, convex_hull3d false pts hull = Ok (hull ++ found) /\ NoDup found /\ incl found pts /\ (forall p, In p pts -> in_hullr found p) /\
    (forall p, In p found -> on_boundary pts p) /\ (forall p, extreme pts p -> In p found).
Proof. exact hull3d_cover. Qed.
Print Assumptions C218_cover_partial.

(** a cube with the centre of a face, its centre and a corner twice *)
Example C218_cover_hypotheses : (forall p, In p (units cube) -> on_grid 1 2 p) /\ ~ on_one_plane (units cube) /\ ~ no_four_coplanar (units cube) /\ 16 * IZR 1 ^ 3 * 2 ^ 2 < 2 ^ 52 /\ (5 <= length (units cube))%nat.
Proof. split; [exact cube_grid|]. split; [exact cube_solid|]. split; [exact cube_coplanar|]. split; [rewrite pow52; lra|cbn; lia]. Qed.

(** C219: false; the member that says whether the first simplex is flat is not
    set before create_initial_simplex clears or keeps it *)
Theorem C219_unset_member_refuted :
  exists pts p, no_four_coplanar pts /\ extreme pts p /\ forall hull, exists found, convex_hull3d true pts hull = Ok (hull ++ found) /\ ~ In p found.
Proof. exact flag_loses. Qed.
Print Assumptions C219_unset_member_refuted.

(** whatever the points: four of them are returned if the member happens to be true *)
Theorem C219_unset_member_four :
  forall k M pts hull, (0 < k)%Z -> 1 <= M -> 16 * IZR k ^ 3 * M ^ 2 < 2 ^ 52 -> (forall p, In p pts -> on_grid k M p) -> ~ on_one_plane pts -> (5 <= length pts)%nat ->
  exists found, convex_hull3d true pts hull = Ok (hull ++ found) /\ length found = 4%nat.
Proof. exact hull3d_flag. Qed.
Print Assumptions C219_unset_member_four.

(** C220: false; small bodies have no hull *)
Theorem C220_small_bodies_refuted :
  exists pts, no_four_coplanar pts /\ (forall p, In p pts -> extreme pts p) /\ (5 <= length pts)%nat /\ forall lower hull, convex_hull3d lower pts hull = Ok hull.
Proof. exists (tiny five). exact (conj tiny_general (conj tiny_extreme (conj (le_n 5) tiny_lost))). Qed.
Print Assumptions C220_small_bodies_refuted.

Theorem C220_small_bodies_lost :
  forall k M pts hull lower, (0 < k)%Z -> 0 < M -> IZR k < 2 ^ 52 -> 4 * M * IZR k ^ 2 < 2 ^ 52 -> 64 * M ^ 3 * 2 ^ 52 < 1 ->
  (forall p, In p pts -> on_grid k M p) -> ~ on_one_plane pts -> (5 <= length pts)%nat -> convex_hull3d lower pts hull = Ok hull.
Proof. exact hull3d_tiny. Qed.
Print Assumptions C220_small_bodies_lost.
Example C220_hypotheses : (forall p, In p (tiny five) -> on_grid 67108864 (8 / 67108864) p) /\ ~ on_one_plane (tiny five) /\ IZR 67108864 < 2 ^ 52 /\ 4 * (8 / 67108864) * IZR 67108864 ^ 2 < 2 ^ 52 /\ 64 * (8 / 67108864) ^ 3 * 2 ^ 52 < 1.
Proof. split; [exact tiny_grid|]. split; [exact (general_not_flat _ tiny_general (le_n 5))|]. rewrite pow52. repeat split; lra. Qed.

(** C221: what is returned comes from the input or was there before *)
Theorem C221_from_input_partial :
  forall lower pts hull r, convex_hull3d lower pts hull = Ok r -> forall p, In p r -> In p hull \/ In p pts.
Proof. exact hull3d_inputs. Qed.
Print Assumptions C221_from_input_partial.

(** but old content stays *)
Theorem C221_old_content_refuted :
  exists pts hull q found, ~ in_hullr pts q /\ In q hull /\ convex_hull3d false pts hull = Ok (hull ++ found).
Proof. exact stale. Qed.
Print Assumptions C221_old_content_refuted.

(** C222: false; fewer than five points are returned as they are *)
Theorem C222_few_points_refuted :
  exists pts p, In p pts /\ ~ extreme pts p /\ NoDup pts /\ forall lower hull, convex_hull3d lower pts hull = Ok pts.
Proof. exact few_not_extreme. Qed.
Print Assumptions C222_few_points_refuted.

(** C223: false; of points on one plane at most three are returned *)
Theorem C223_flat_three_points :
  forall lower pts hull, on_one_plane pts -> (5 <= length pts)%nat -> exists found, convex_hull3d lower pts hull = Ok found /\ (length found <= 3)%nat /\ incl found pts.
Proof. exact hull3d_flat. Qed.
Print Assumptions C223_flat_three_points.
Example C223_hypotheses : on_one_plane pentagon /\ (5 <= length pentagon)%nat.
Proof. exact (conj pentagon_flat (le_n 5)). Qed.

Theorem C223_flat_refuted :
  exists pts, on_one_plane pts /\ forall lower hull, exists found p, convex_hull3d lower pts hull = Ok found /\ extreme pts p /\ ~ In p found /\ ~ in_hullr found p.
Proof. exact (ex_intro _ pentagon (conj pentagon_flat flat_lost)). Qed.
Print Assumptions C223_flat_refuted.
