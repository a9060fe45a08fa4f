(** * HeapModel: a store of C objects and the programs that work on it

    Objects allocated by malloc are cells of a finite map from addresses to
    contents; address 0 is NULL.  Reading, writing or freeing an address that is
    not allocated, or that holds another kind of object, is undefined behaviour:
    so use after free, double free and NULL dereference are [UB].  malloc never
    fails (OSL_malloc stops the program when it does, include/osl/macros.h) and
    returns an address that is not in use, whichever it likes: all theorems hold
    for every such allocator. *)
From stdpp Require Import gmap.
From Verif Require Import Base.

Definition ptr := Z.
Definition NULL : ptr := 0.

Notation heap V := (gmap Z V).

(** What malloc may do: choose, in a heap, an address that is neither NULL nor in use. *)
Class Allocator (V : Type) := {
  pick : heap V -> ptr;
  pick_ok : forall h, pick h <> NULL /\ h !! pick h = None }.

Section HEAP.
Context {V : Type}.
(** Programs: run on a heap, give a result and the new heap. *)
Definition prog (A : Type) := heap V -> res (A * heap V).
Definition ret {A} (a : A) : prog A := fun h => Ok (a, h).
Definition pbind {A B} (c : prog A) (f : A -> prog B) : prog B := fun h =>
  match c h with
  | Ok (a, h') => f a h'
  | Err => Err
  | UB => UB
  | OutOfFuel => OutOfFuel
  end.
(** A pure computation of the value-level model. *)
Definition lift {A} (x : res A) : prog A := fun h =>
  match x with Ok a => Ok (a, h) | Err => Err | UB => UB | OutOfFuel => OutOfFuel end.
Definition load (p : ptr) : prog V := fun h =>
  match h !! p with Some v => Ok (v, h) | None => UB end.
Definition store (p : ptr) (v : V) : prog unit := fun h =>
  match h !! p with Some _ => Ok (tt, <[p := v]> h) | None => UB end.
Definition alloc `{Allocator V} (v : V) : prog ptr := fun h =>
  let p := pick h in Ok (p, <[p := v]> h).
(** free(NULL) does nothing. *)
Definition free (p : ptr) : prog unit := fun h =>
  if Z.eqb p NULL then Ok (tt, h)
  else match h !! p with Some _ => Ok (tt, delete p h) | None => UB end.
(** A loop gets as many iterations as there are allocated objects, plus one: a
    traversal that needs more is going round a cycle and never ends in C. *)
Definition loop {A} (f : nat -> prog A) : prog A := fun h => f (S (size h)) h.
End HEAP.
Arguments prog : clear implicits.

Notation "x <== e1 ;; e2" := (pbind e1 (fun x => e2))
  (at level 60, e1 at next level, right associativity).
Notation "' p <== e1 ;; e2" := (pbind e1 (fun p => e2))
  (at level 60, p pattern, e1 at next level, right associativity).
Notation "e1 ;;== e2" := (pbind e1 (fun _ => e2))
  (at level 60, right associativity).

(** One allocator, for the examples. *)
Definition bump {V} (h : heap V) : ptr := fresh ({[NULL]} ∪ dom h).
Lemma bump_ok {V} (h : heap V) : bump h <> NULL /\ h !! bump h = None.
Proof.
  unfold bump. assert (Hp : fresh ({[NULL]} ∪ dom h) ∉ ({[NULL]} ∪ dom h : gset Z)) by apply is_fresh.
  rewrite <- not_elem_of_dom. set_solver.
Qed.
Definition bump_allocator V : Allocator V := Build_Allocator V bump bump_ok.
