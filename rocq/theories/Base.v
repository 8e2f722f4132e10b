(** Common infrastructure: outcomes of C++ code, exact numbers, list helpers. *)
From Coq Require Import List ZArith Lia QArith Qcanon Lqa Bool.
Import ListNotations.

(** ** Outcomes *)

(** Kinds of C++ exceptions the library throws. *)
Inductive exn : Type :=
| EInvalidArgument
| EOutOfRange
| ERuntime
| ELength
| EBadAlloc.

(** Result of running a piece of C++ code: normal value, exception, or
    undefined behaviour (out-of-bounds access and the like). *)
Inductive res (A : Type) : Type :=
| Ok (a : A)
| Throw (e : exn)
| UB.
Arguments Ok {A} a.
Arguments Throw {A} e.
Arguments UB {A}.

Definition bind {A B} (r : res A) (f : A -> res B) : res B :=
  match r with
  | Ok a => f a
  | Throw e => Throw e
  | UB => UB
  end.

Declare Scope res_scope.
Delimit Scope res_scope with res.
Notation "x <- r ;; k" := (bind r (fun x => k))
  (at level 61, r at next level, right associativity) : res_scope.
Notation "' p <- r ;; k" := (bind r (fun p => k))
  (at level 61, p pattern, r at next level, right associativity) : res_scope.
Open Scope res_scope.

Definition of_option {A} (o : option A) : res A :=
  match o with Some a => Ok a | None => UB end.

(** [v[i]] on a std::vector / std::array: no bounds check, out of range is UB. *)
Definition get {A} (l : list A) (i : nat) : res A := of_option (nth_error l i).

(** [v[i]] with a signed (int) index. *)
Definition getZ {A} (l : list A) (i : Z) : res A :=
  if (i <? 0)%Z then UB else get l (Z.to_nat i).

(** [v[i] = x]: out of range is UB. *)
Fixpoint set_nth {A} (l : list A) (i : nat) (x : A) : res (list A) :=
  match l, i with
  | [], _ => UB
  | _ :: t, O => Ok (x :: t)
  | h :: t, S i' => t' <- set_nth t i' x ;; Ok (h :: t')
  end.

Definition set_nthZ {A} (l : list A) (i : Z) (x : A) : res (list A) :=
  if (i <? 0)%Z then UB else set_nth l (Z.to_nat i) x.

(** [for (i = start; i < start + count; ++i) s = body(i, s)] *)
Fixpoint for_up {S} (count : nat) (start : nat) (body : nat -> S -> res S) (s : S) : res S :=
  match count with
  | O => Ok s
  | Datatypes.S c => s' <- body start s ;; for_up c (Datatypes.S start) body s'
  end.

(** Map over a list in the result monad. *)
Fixpoint mapM {A B} (f : A -> res B) (l : list A) : res (list B) :=
  match l with
  | [] => Ok []
  | a :: t => b <- f a ;; bs <- mapM f t ;; Ok (b :: bs)
  end.

(** ** Exact numbers *)

Open Scope Qc_scope.

Definition Qcleb (a b : Qc) : bool := Qle_bool (this a) (this b).
Definition Qcltb (a b : Qc) : bool := negb (Qcleb b a).
Definition Qceqb (a b : Qc) : bool := Qeq_bool (this a) (this b).
Definition Qcmin (a b : Qc) : Qc := if Qcltb b a then b else a.   (* std::min *)
Definition Qcmax (a b : Qc) : Qc := if Qcltb a b then b else a.   (* std::max *)
Definition Qcabs (a : Qc) : Qc := if Qcltb a 0 then - a else a.   (* std::abs *)

Infix "<=?" := Qcleb (at level 70, no associativity) : Qc_scope.
Infix "<?" := Qcltb (at level 70, no associativity) : Qc_scope.
Infix "=?" := Qceqb (at level 70, no associativity) : Qc_scope.

Definition Qc_of_Z (z : Z) : Qc := Q2Qc (inject_Z z).
Definition Qc_of_nat (n : nat) : Qc := Qc_of_Z (Z.of_nat n).

(** literal [qc num den] *)
Definition qc (n : Z) (d : positive) : Qc := Q2Qc (n # d).
