(** Model of who releases the memory of a MemoryView, cmmcore/memoryview.h: the
    member is_managed_, the constructors, copy(), deserialize(), slices and the
    destructor. Shapes, strides and elements are in ModelMemView; here a view is the
    buffer it points to and its flag. *)
From Coq Require Import List Arith Bool.
Import ListNotations.

(** where a buffer comes from: the program, malloc in copy() (memoryview.h:106),
    new[] in deserialize() (memoryview.h:422) *)
Inductive source := Program | Malloc | NewArray.
(** data_ (the number of a buffer) and is_managed_, memoryview.h:489-490 *)
Record view := View { v_data : nat; v_managed : bool }.
(** the buffers allocated so far, the arguments free() was called with, and the views
    constructed so far; None: the view was destroyed *)
Record state := State { buffers : list source; freed : list nat; views : list (option view) }.
Definition start : state := State [] [] [].

(** what a program can do. The buffers of the program are taken to outlive the views. *)
Inductive op :=
| Allocate                 (* the program makes a buffer of its own *)
| Construct (b : nat)      (* MemoryView(data, shape) on a buffer of the program *)
| Copy (v : nat)           (* v.copy() *)
| CopyConstruct (v : nat)  (* MemoryView w(v) *)
| Assign (v w : nat)       (* v = w *)
| SliceView (v : nat)      (* v.slice(...) or v[i] *)
| Deserialize              (* MemoryView::deserialize(...) *)
| Read (v : nat)           (* an element of v *)
| Destroy (v : nat).       (* the destructor of v *)

(** NotAlive: not a step of a program, since there is no such view or buffer.
    BadFree: free() of memory that was freed or does not come from malloc.
    DeadRead: memory is read after it was freed. *)
Inductive outcome := Done (s : state) | NotAlive | BadFree | DeadRead.

Definition alive (s : state) (v : nat) : option view := match nth_error (views s) v with Some (Some x) => Some x | _ => None end.
Definition is_freed (s : state) (b : nat) : bool := existsb (Nat.eqb b) (freed s).
Fixpoint put (l : list (option view)) (i : nat) (x : option view) : list (option view) :=
  match l, i with [] , _ => [] | _ :: t, O => x :: t | a :: t, S i => a :: put t i x end.
Definition add_view (s : state) (x : view) : state := State (buffers s) (freed s) (views s ++ [Some x]).

Definition step (o : op) (s : state) : outcome :=
  match o with
  | Allocate => Done (State (buffers s ++ [Program]) (freed s) (views s))
  (* memoryview.h:68-72; is_managed_ is false, memoryview.h:489 *)
  | Construct b => match nth_error (buffers s) b with Some Program => Done (add_view s (View b false)) | _ => NotAlive end
  (* copy(), memoryview.h:103-114, when size() returns: memcpy reads the old buffer *)
  | Copy v => match alive s v with
      | None => NotAlive
      | Some x => if is_freed s (v_data x) then DeadRead
          else Done (State (buffers s ++ [Malloc]) (freed s) (views s ++ [Some (View (length (buffers s)) true)]))
      end
  (* the copy constructor and assignment the compiler defines: all members *)
  | CopyConstruct v => match alive s v with None => NotAlive | Some x => Done (add_view s x) end
  | Assign v w => match alive s v, alive s w with
      | Some _, Some x => Done (State (buffers s) (freed s) (put (views s) v (Some x)))
      | _, _ => NotAlive
      end
  (* memoryview.h:197, 227, through the constructor in memoryview.h:75-78 *)
  | SliceView v => match alive s v with None => NotAlive | Some x => Done (add_view s (View (v_data x) false)) end
  (* memoryview.h:421-427 *)
  | Deserialize => Done (State (buffers s ++ [NewArray]) (freed s) (views s ++ [Some (View (length (buffers s)) false)]))
  (* operator(), memoryview.h:231-247 *)
  | Read v => match alive s v with None => NotAlive | Some x => if is_freed s (v_data x) then DeadRead else Done s end
  (* ~MemoryView, memoryview.h:476-486; the pointers here are not null *)
  | Destroy v => match alive s v with
      | None => NotAlive
      | Some x =>
          if v_managed x then
            match nth_error (buffers s) (v_data x) with
            | Some Malloc => if is_freed s (v_data x) then BadFree else Done (State (buffers s) (freed s ++ [v_data x]) (put (views s) v None))
            | _ => BadFree
            end
          else Done (State (buffers s) (freed s) (put (views s) v None))
      end
  end.
Fixpoint run (ops : list op) (s : state) : outcome :=
  match ops with [] => Done s | o :: t => match step o s with Done s' => run t s' | r => r end end.
