(** Model of MemoryView::write_to_file and read_from_file, cmmcore/memoryview.h. *)
From Coq Require Import List ZArith.
From Verif Require Import Base ModelSerialization ModelMemView.
Import ListNotations.
Local Open Scope Z_scope.

(** an open FILE: its bytes and the position in it. A null FILE, which throws,
    is left out, and so are fseek and ftell that fail. *)
Record vfile := VF { vf_bytes : list byte; vf_pos : nat }.
(** fwrite in write_to_file, memoryview.h:431-443: of [b] the device takes the first [taken] bytes. The bytes
    between the end and the position are 0. *)
Definition vf_write (f : vfile) (b : list byte) (taken : nat) : nat * vfile :=
  let b := firstn taken b in
  let old := vf_bytes f in
  (length b, VF (firstn (vf_pos f) old ++ repeat 0 (vf_pos f - length old) ++ b ++ skipn (vf_pos f + length b) old) (vf_pos f + length b)).
(** write_to_file, memoryview.h:431-443; the file is what is left of it, also
    when the call throws *)
Definition view_write (tn : list byte) (sz : Z) (v : mview (list byte)) (taken : nat) (f : vfile) : res unit * vfile :=
  match mv_serialize tn sz v with
  | Ok b => let '(n, f) := vf_write f b taken in (if Nat.eqb n (length b) then Ok tt else Throw ERuntime, f)
  | Throw e => (Throw e, f)
  | UB => (UB, f)
  end.
(** read_from_file, memoryview.h:446-475: from the start to the end of the file.
    Every byte can be read. *)
Definition view_read (tn : list byte) (sz : Z) (f : vfile) : res (mview (list byte)) := mv_deserialize tn sz (vf_bytes f).
(** an empty file; rewind *)
Definition vf_new : vfile := VF [] 0.
Definition vf_rewind (f : vfile) : vfile := VF (vf_bytes f) 0.
