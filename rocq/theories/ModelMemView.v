(** Model of cmmcore/memoryview.h.

    A view is the buffer it points into together with shape, strides and offset.
    size_t values are integers in [0, 2^64), arithmetic on them is reduced
    modulo 2^64 by [w64]; int arithmetic that leaves [-2^31, 2^31) is UB.
    Ownership (is_managed_, the destructor, memoryview.h:476-486) is in
    ModelOwner; allocation fails only where the size is impossible. *)
From Coq Require Import List ZArith Lia Bool.
From Verif Require Import Base ModelSerialization.
Import ListNotations.
Open Scope Z_scope.

(** size_t arithmetic *)
Definition w64 (z : Z) : Z := z mod 2 ^ 64.

(** static_cast<int>(size_t) *)
Definition as_int (z : Z) : Z := to_int32 (z mod 2 ^ 32).

(** result of an int operation *)
Definition int_op (z : Z) : res Z := if (- 2 ^ 31 <=? z) && (z <? 2 ^ 31) then Ok z else UB.

(** struct Slice, memoryview.h:24-54, by constructor. The integers are ints. *)
Inductive slice :=
| SAll                          (* Slice(), l. 40 *)
| SIdx (idx : Z)                (* Slice(int), l. 45 *)
| SRange (s e st : Z).          (* Slice(int, int, int), l. 50 *)

(** compute_total_size, memoryview.h:57-61 *)
Definition compute_total_size (shape : list Z) : Z :=
  match shape with
  | [] => 0
  | _ => fold_left (fun acc n => w64 (acc * n)) shape 1
  end.

(** MemoryView::compute_strides, memoryview.h:498-507 *)
Fixpoint compute_strides (shape : list Z) : list Z :=
  match shape with
  | [] => []
  | _ :: sh =>
      match compute_strides sh, sh with
      | s1 :: st, n1 :: _ => w64 (s1 * n1) :: s1 :: st
      | _, _ => [1]
      end
  end.

Section View.
Context {A : Type}.

(** MemoryView members, memoryview.h:490-493 *)
Record mview := MV { mdata : list A; mshape : list Z; mstrides : list Z; moffset : Z }.

(** MemoryView(T*, shape), memoryview.h:68-72 *)
Definition mv_make (data : list A) (shape : list Z) : mview :=
  MV data shape (compute_strides shape) 0.

(** size(), memoryview.h:94-102: the loop variable itself is multiplied. None =
    out of fuel. *)
Fixpoint size_loop (fuel : nat) (shape : list Z) (i : Z) : option Z :=
  if Z.of_nat (length shape) <=? i then Some 1
  else
    match fuel with
    | O => None
    | S f =>
        match nth_error shape (Z.to_nat i) with
        | Some n => size_loop f shape (w64 (w64 (i * n) + 1))
        | None => None
        end
    end.
Definition mv_size (fuel : nat) (v : mview) : option Z := size_loop fuel (mshape v) 0.

(** copy(), memoryview.h:103-114: [n] is the value size() returned; the new
    buffer holds n elements copied from data_ (not data_ + offset_). *)
Definition mv_copy (n : Z) (v : mview) : res mview :=
  if n <=? Z.of_nat (length (mdata v)) then
    Ok (MV (firstn (Z.to_nat n) (mdata v)) (mshape v) (mstrides v) (moffset v))
  else UB.

(** One iteration of the loop of slice(), memoryview.h:125-188, for a slice on
    an extent [n] with stride [s]: the new dimension, if kept, and the amount
    added to the offset. *)
Definition slice_dim (sl : slice) (n s : Z) : res (option (Z * Z) * Z) :=
  match sl with
  | SIdx i =>
      let idx := if i <? 0 then i + as_int n else i in
      if (idx <? 0) || (as_int n <=? idx) then Throw EOutOfRange
      else Ok (None, w64 (idx * s))
  | _ =>
      let start := match sl with SRange a _ _ => a | _ => 0 end in
      let stop := match sl with SRange _ b _ => b | _ => as_int n end in
      let step := match sl with SRange _ _ st => st | _ => 1 end in
      let start := if start <? 0 then start + as_int n else start in
      let stop := if stop <? 0 then stop + as_int n else stop in
      let start := Z.max 0 (Z.min start (as_int n)) in
      let stop := Z.max 0 (Z.min stop (as_int n)) in
      if step =? 0 then Throw EInvalidArgument
      else
        len <- (if 0 <? step then
                  if start <? stop then
                    t <- int_op (stop - start + step) ;; Ok ((t - 1) / step)
                  else Ok 0
                else
                  if stop <? start then
                    t <- int_op (start - stop - step) ;; m <- int_op (- step) ;; Ok ((t - 1) / m)
                  else Ok 0) ;;
        let len := Z.max len 0 in
        Ok (Some (len, w64 (s * step)), w64 (start * s))
  end.

(** the loops of slice(), memoryview.h:125-195 *)
Fixpoint slice_loop (slices : list slice) (shape strides : list Z) (offset : Z)
  : res (list Z * list Z * Z) :=
  match slices with
  | [] => Ok (shape, strides, offset)
  | sl :: rest =>
      match shape, strides with
      | n :: shape', s :: strides' =>
          '(dim, d) <- slice_dim sl n s ;;
          '(sh, st, off) <- slice_loop rest shape' strides' (w64 (offset + d)) ;;
          match dim with
          | Some (len, str) => Ok (len :: sh, str :: st, off)
          | None => Ok (sh, st, off)
          end
      | [], _ => Throw EInvalidArgument
      | _ :: _, [] => UB
      end
  end.

(** slice(), memoryview.h:116-198 *)
Definition mv_slice (v : mview) (slices : list slice) : res mview :=
  '(sh, st, off) <- slice_loop slices (mshape v) (mstrides v) (moffset v) ;;
  Ok (MV (mdata v) sh st off).

(** reshape(), memoryview.h:201-211: the view after the call. *)
Definition mv_reshape (v : mview) (new_shape : list Z) : res mview :=
  if compute_total_size new_shape =? compute_total_size (mshape v)
  then Ok (MV (mdata v) new_shape (compute_strides new_shape) (moffset v))
  else Throw EInvalidArgument.

(** operator[], memoryview.h:214-228 *)
Definition mv_index (v : mview) (index : Z) : res mview :=
  match mshape v with
  | [] => Throw EOutOfRange
  | n :: sh =>
      if n <=? index then Throw EOutOfRange
      else match mstrides v with
           | s :: st => Ok (MV (mdata v) sh st (w64 (moffset v + w64 (index * s))))
           | [] => UB
           end
  end.

(** the loop of operator(), memoryview.h:237-245 *)
Fixpoint idx_loop (indices shape strides : list Z) (idx : Z) : res Z :=
  match indices with
  | [] => Ok idx
  | i :: is =>
      match shape, strides with
      | n :: ns, s :: ss =>
          if n <=? i then Throw EOutOfRange
          else idx_loop is ns ss (w64 (idx + w64 (i * s)))
      | _, _ => UB
      end
  end.

(** operator(), memoryview.h:231-247: the position in the buffer that the
    returned reference denotes... *)
Definition mv_pos (v : mview) (indices : list Z) : res Z :=
  if negb (Nat.eqb (length indices) (length (mshape v))) then Throw EInvalidArgument
  else idx_loop indices (mshape v) (mstrides v) (moffset v).
(** ... and the element there (outside the buffer: UB). *)
Definition mv_at (v : mview) (indices : list Z) : res A :=
  p <- mv_pos v indices ;; getZ (mdata v) p.

(** the elements to_string() prints, memoryview.h:279-285 *)
Fixpoint preview_loop (count : nat) (i : Z) (v : mview) : res (list A) :=
  match count with
  | O => Ok []
  | S c =>
      s0 <- get (mstrides v) 0 ;;
      x <- getZ (mdata v) (w64 (moffset v + w64 (i * s0))) ;;
      xs <- preview_loop c (i + 1) v ;; Ok (x :: xs)
  end.
Definition mv_preview (preview_limit : Z) (v : mview) : res (list A) :=
  preview_loop (Z.to_nat (Z.min preview_limit (compute_total_size (mshape v)))) 0 v.

(** A history of slice() and operator[] calls. *)
Inductive mvop := OSlice (slices : list slice) | OIndex (i : Z).
Definition mv_step (v : mview) (o : mvop) : res mview :=
  match o with OSlice ss => mv_slice v ss | OIndex i => mv_index v i end.
Fixpoint mv_run (v : mview) (ops : list mvop) : res mview :=
  match ops with
  | [] => Ok v
  | o :: t => v' <- mv_step v o ;; mv_run v' t
  end.
End View.
Arguments mview : clear implicits.
Arguments MV {A}.

(** ** Serialization. Elements are their object representations, byte strings of
    length [sz] = sizeof(T); [tn] is typeid(T).name(). *)

Definition size_bytes (z : Z) : list byte := le_bytes 8 z.

(** bytes [pos, pos+len) of a buffer; out of range is UB *)
Definition sub_bytes (buf : list byte) (pos len : Z) : res (list byte) :=
  if (0 <=? pos) && (0 <=? len) && (pos + len <=? Z.of_nat (length buf))
  then Ok (firstn (Z.to_nat len) (skipn (Z.to_nat pos) buf))
  else UB.

(** serialize(), memoryview.h:306-346 *)
Definition mv_serialize (tn : list byte) (sz : Z) (v : mview (list byte)) : res (list byte) :=
  let data_size := w64 (compute_total_size (mshape v) * sz) in
  d <- sub_bytes (concat (mdata v)) (moffset v * sz) data_size ;;
  Ok (size_bytes (Z.of_nat (length tn)) ++ tn ++
      size_bytes (Z.of_nat (length (mshape v))) ++
      flat_map size_bytes (mshape v) ++ flat_map size_bytes (mstrides v) ++
      size_bytes (moffset v) ++ d).

(** memcpy of a byte string into an array of [n] objects of [sz] bytes *)
Fixpoint chunks (n : nat) (sz : nat) (b : list byte) : list (list byte) :=
  match n with
  | O => []
  | S n' => firstn sz b :: chunks n' sz (skipn sz b)
  end.

(** reading [n] size_t values at [pos] *)
Definition read_sizes (buf : list byte) (pos n : Z) : res (list Z) :=
  if 2 ^ 60 <=? n then Throw ELength      (* std::vector<size_t>(n), n > max_size() *)
  else b <- sub_bytes buf pos (8 * n) ;; Ok (map le_value (chunks (Z.to_nat n) 8 b)).

Fixpoint bytes_eqb (a b : list byte) : bool :=
  match a, b with
  | [], [] => true
  | x :: a', y :: b' => (x =? y) && bytes_eqb a' b'
  | _, _ => false
  end.

(** deserialize(), memoryview.h:351-428 *)
Definition mv_deserialize (tn : list byte) (sz : Z) (buf : list byte) : res (mview (list byte)) :=
  let n := Z.of_nat (length buf) in
  let pos := 0 in
  if n <? w64 (pos + 8) then Throw EInvalidArgument else
  b <- sub_bytes buf pos 8 ;;
  let tl := le_value b in
  let pos := w64 (pos + 8) in
  if n <? w64 (pos + tl) then Throw EInvalidArgument else
  (* std::string(const char*, size_t): longer than max_size() throws *)
  name <- (if 2 ^ 63 - 1 <? tl then Throw ELength else sub_bytes buf pos tl) ;;
  let pos := w64 (pos + tl) in
  if negb (bytes_eqb name tn) then Throw EInvalidArgument else
  if n <? w64 (pos + 8) then Throw EInvalidArgument else
  b <- sub_bytes buf pos 8 ;;
  let ndim := le_value b in
  let pos := w64 (pos + 8) in
  if n <? w64 (pos + w64 (8 * ndim)) then Throw EInvalidArgument else
  shape <- read_sizes buf pos ndim ;;
  let pos := w64 (pos + w64 (8 * ndim)) in
  if n <? w64 (pos + w64 (8 * ndim)) then Throw EInvalidArgument else
  strides <- read_sizes buf pos ndim ;;
  let pos := w64 (pos + w64 (8 * ndim)) in
  if n <? w64 (pos + 8) then Throw EInvalidArgument else
  b <- sub_bytes buf pos 8 ;;
  let pos := w64 (pos + 8) in
  let total := compute_total_size shape in
  let data_size := w64 (total * sz) in
  if n <? w64 (pos + data_size) then Throw EInvalidArgument else
  if 2 ^ 63 <=? total * sz then Throw EBadAlloc else   (* new T[total] *)
  d <- sub_bytes buf pos data_size ;;
  Ok (MV (chunks (Z.to_nat total) (Z.to_nat sz) d) shape strides 0).
