(** assemble_polylines of cmmcore/polyline.h once more, over the index of
    ModelRoundCell.v: the cells are computed in double arithmetic. The rest of the code
    does no arithmetic but the test for closeness. *)
From Coq Require Import List ZArith QArith Qcanon Bool.
From Verif Require Import Base ModelVec ModelMemView ModelPolyline ModelRoundCell.
Import ListNotations.
Open Scope Qc_scope.

Section Rounded.
Variable fl : nat -> Qc -> option Qc.

Section Assemble.
Variable near : vec3 -> vec3 -> bool.
Variable segs : list segment.
Variable eps : list endpoint.

(** one attempt to extend, at the front (polyline.h:174-203) or the back (206-235) *)
Definition fextend (front : bool) (st : pstate) : res (bool * pstate) :=
  let '(ix, done_, pl) := st in
  cur <- get pl (if front then 0%nat else (length pl - 1)%nat) ;;
  cands <- ffind_nearby_endpoints fl ix cur ;;
  hit <- pick near eps cands done_ cur ;;
  match hit with
  | None => Ok (false, st)
  | Some e =>
      ep <- get eps e ;;
      far <- far_point segs ep ;;
      ix' <- drop_endpoints eps ix e ;;
      Ok (true, (ix', ep_seg ep :: done_, if front then far :: pl else pl ++ [far]))
  end.

(** the while loop, polyline.h:170-236. Running out of fuel is UB; the theorems
    show it does not happen. *)
Fixpoint fextend_loop (fuel : nat) (st : pstate) : res pstate :=
  match fuel with
  | O => UB
  | S f =>
      '(a, st1) <- fextend true st ;;
      '(b, st2) <- fextend false st1 ;;
      if a || b then fextend_loop f st2 else Ok st2
  end.

(** body of the main loop, polyline.h:145-247 *)
Definition fassemble_step (e : nat) (st : sindex * list nat * list (list vec3))
  : res (sindex * list nat * list (list vec3)) :=
  let '(ix, done_, br) := st in
  ep <- get eps e ;;
  if processed (ep_seg ep) done_ then Ok st
  else
    far <- far_point segs ep ;;
    ix1 <- drop_endpoints eps ix e ;;
    '(ix2, done2, pl) <- fextend_loop (S (length segs)) (ix1, ep_seg ep :: done_, [ep_point ep; far]) ;;
    pl' <- close_polyline near pl ;;
    Ok (ix2, done2, br ++ [pl']).
End Assemble.

(** assemble_polylines, polyline.h:123-250 *)
Definition fassemble_polylines (near : vec3 -> vec3 -> bool) (segs : list segment) (branches : list (list vec3))
  : res (list (list vec3)) :=
  let eps := make_endpoints 0 segs in
  ix <- fbuild_index fl eps ;;
  '(_, _, br) <- for_up (length eps) 0 (fassemble_step near segs eps) (ix, [], branches) ;;
  Ok br.
End Rounded.
