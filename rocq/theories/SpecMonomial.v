(** Polynomials in two variables, Bernstein form, derivatives. *)
From Coq Require Import List ZArith QArith Qcanon.
From Verif Require Import Base ModelVec ModelSurface SpecNurbs SpecSurface.
Import ListNotations.
Open Scope Qc_scope.

Fixpoint qpow (x : Qc) (n : nat) : Qc := match n with O => 1 | S k => x * qpow x k end.

(** binomial coefficients by Pascal's rule *)
Fixpoint pascal (n k : nat) : Z :=
  match n, k with
  | _, O => 1
  | O, S _ => 0
  | S n', S k' => pascal n' k' + pascal n' (S k')
  end.
(** i-th Bernstein polynomial of degree n *)
Definition bernstein (n i : nat) (u : Qc) : Qc := Qc_of_Z (pascal n i) * qpow u i * qpow (1 - u) (n - i).

(** an n x m array of points and its entries *)
Definition shape {A} (T : list (list A)) (n m : nat) : Prop := length T = n /\ forall i, (i < n)%nat -> length (nth i T []) = m.
Definition ent (T : list (list vec3)) (i j : nat) : vec3 := nth j (nth i T []) (V3 0 0 0).

(** sum over i, j of T_ij f(i) g(j), by components *)
Definition combination (T : nat -> nat -> vec3) (n m : nat) (f g : nat -> Qc) : vec3 :=
  let s c := qsum (fun i => qsum (fun j => c (T i j) * f i * g j) m) n in V3 (s vx) (s vy) (s vz).
(** the polynomial sum T_ij u^i v^j *)
Definition poly2 (T : list (list vec3)) (n m : nat) (u v : Qc) : vec3 := combination (ent T) n m (qpow u) (qpow v).
(** the Bezier patch of degree (n-1, m-1) with control points P_ij *)
Definition bezier_patch (P : nat -> nat -> vec3) (n m : nat) (u v : Qc) : vec3 :=
  combination P n m (fun i => bernstein (n - 1) i u) (fun j => bernstein (m - 1) j v).

(** position of a homogeneous point *)
Definition euclid (q : vec4) : vec3 := V3 (wx q / ww q) (wy q / ww q) (wz q / ww q).

(** d is the derivative of f at x, with quadratic remainder *)
Definition has_derivative (f : Qc -> Qc) (x d : Qc) : Prop :=
  exists K, forall h, - (1) <= h -> h <= 1 -> - (K * (h * h)) <= f (x + h) - f x - h * d /\ f (x + h) - f x - h * d <= K * (h * h).
Definition has_derivative3 (f : Qc -> vec3) (x : Qc) (d : vec3) : Prop :=
  has_derivative (fun t => vx (f t)) x (vx d) /\ has_derivative (fun t => vy (f t)) x (vy d) /\ has_derivative (fun t => vz (f t)) x (vz d).
