(** The remaining constructors of Monomial2D, cmmcore/monomial.h. *)
From Coq Require Import List ZArith QArith Qcanon.
From Verif Require Import Base ModelVec ModelNumeric ModelMonomial.
Import ListNotations.
Open Scope Qc_scope.

(** the matrices of given sizes, monomial.h:148-151, 158-159; n - 1 and m - 1
    are ints *)
Definition int_pred (n : Z) : res Z := if (n <=? - 2 ^ 31)%Z then UB else Ok (n - 1)%Z.
Definition mo_sized (n m : Z) (coeffs : tensor3) : res mono :=
  n1 <- int_pred n ;; mu <- bpmat n1 ;;
  m1 <- int_pred m ;; mv <- bpmat m1 ;;
  mui <- md_inverse mu ;; mvi <- md_inverse mv ;;
  Ok (Mono (Z.to_nat n) (Z.to_nat m) coeffs mu mv mui mvi).

(** Monomial2D(n, m), monomial.h:156-161: the sizes of the vectors are sizes, a
    negative int turns into one that is too large *)
Definition mo_blank (n m : Z) : res mono :=
  if ((n <? 0) || (m <? 0))%Z then Throw ELength else
  mo_sized n m (repeat (repeat (V3 0 0 0) (Z.to_nat m)) (Z.to_nat n)).

(** the copy constructor, monomial.h:170-173 *)
Definition mo_copy (o : mono) : mono :=
  Mono (mo_n o) (mo_m o) (mo_coeffs o) (mo_Mu o) (mo_Mv o) (mo_Mui o) (mo_Mvi o).
