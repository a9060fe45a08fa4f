(** * Base: outcomes, C integer types, configuration, loops, arrays.

    Shared vocabulary of the model.  No proofs here. *)
From Coq Require Export String Ascii ZArith Lia Bool List.
Export ListNotations.
Open Scope Z_scope.
(* [string] is only used to write literals, the model works on [list ascii]. *)
Close Scope string_scope.

(** ** Outcomes
    [Ok a]      normal return;
    [Err]       OSL_error / OSL_overflow: message on stderr then exit(1)
                (include/osl/macros.h:145-151);
    [UB]        undefined behaviour of the C program;
    [OutOfFuel] the loop has not terminated within the fuel given to it: no
                theorem ever concludes anything good from it. *)
Inductive res (A : Type) : Type :=
| Ok (a : A)
| Err
| UB
| OutOfFuel.
Arguments Ok {A} _.
Arguments Err {A}.
Arguments UB {A}.
Arguments OutOfFuel {A}.

Definition bind {A B} (x : res A) (f : A -> res B) : res B :=
  match x with
  | Ok a => f a
  | Err => Err
  | UB => UB
  | OutOfFuel => OutOfFuel
  end.

Notation "x <- e1 ;; e2" := (bind e1 (fun x => e2))
  (at level 60, e1 at next level, right associativity).
Notation "' p <- e1 ;; e2" := (bind e1 (fun p => e2))
  (at level 60, p pattern, e1 at next level, right associativity).
Notation "e1 ;;; e2" := (bind e1 (fun _ => e2))
  (at level 60, right associativity).

Definition is_ok {A} (x : res A) : bool :=
  match x with Ok _ => true | _ => false end.

(** ** Build configuration
    [gmp] : the library is compiled with OSL_GMP_IS_HERE;
    [ndebug] : compiled with NDEBUG (the overflow checks are removed);
    [long_bits] : width of C [long] (64 on LP64, 32 on LLP64/ILP32).
    [int] is 32 bits and [long long] 64 bits on every supported target. *)
Record config := Config { gmp : bool; ndebug : bool; long_bits : Z }.
Existing Class config.

Definition config_ok (c : config) : Prop := long_bits c = 32 \/ long_bits c = 64.

(** Usual host: LP64, checked build, GMP available. *)
Definition lp64_debug : config := Config true false 64.
Definition lp64_release : config := Config true true 64.
Definition llp64_debug : config := Config true false 32.
Definition lp64_nogmp : config := Config false false 64.

(** ** C integer types *)
Definition smin (bits : Z) : Z := - 2 ^ (bits - 1).
Definition smax (bits : Z) : Z := 2 ^ (bits - 1) - 1.
Definition fits (bits v : Z) : bool := (smin bits <=? v) && (v <=? smax bits).
Definition INT_MIN : Z := smin 32.
Definition INT_MAX : Z := smax 32.
Definition LLONG_MIN : Z := smin 64.
Definition LLONG_MAX : Z := smax 64.

(** A signed arithmetic result that does not fit its type is UB (C11 6.5p5). *)
Definition csigned (bits v : Z) : res Z := if fits bits v then Ok v else UB.

(** Conversion to a narrower signed type: implementation-defined, modelled as
    two's complement wrap-around, as on every supported compiler. *)
Definition wrap (bits v : Z) : Z :=
  (v + 2 ^ (bits - 1)) mod 2 ^ bits - 2 ^ (bits - 1).

(** ** Constants of include/osl/macros.h:69-108 *)
Definition PRECISION_SP : Z := 32.
Definition PRECISION_DP : Z := 64.
Definition PRECISION_MP : Z := 0.
Definition UNDEFINED : Z := -1.
Definition MAX_STRING : Z := 2048.
Definition FMT_LENGTH : Z := 4.
Definition TYPE_GENERIC : Z := 0.
Definition TYPE_STRING : Z := 1.
Definition TYPE_CONTEXT : Z := 2.
Definition TYPE_DOMAIN : Z := 3.
Definition TYPE_SCATTERING : Z := 4.
Definition TYPE_ACCESS : Z := 5.
Definition TYPE_READ : Z := 6.
Definition TYPE_WRITE : Z := 7.
Definition TYPE_MAY_WRITE : Z := 8.

(** ** Loops: [for (i = lo; i < hi; i++) body] over a state *)
Fixpoint for_loop {S : Type} (n : nat) (i : Z) (body : Z -> S -> res S) (s : S)
  : res S :=
  match n with
  | O => Ok s
  | Datatypes.S n' => s' <- body i s ;; for_loop n' (i + 1) body s'
  end.

Definition cfor {S : Type} (lo hi : Z) (body : Z -> S -> res S) (s : S) : res S :=
  for_loop (Z.to_nat (hi - lo)) lo body s.

(** A loop that may [return] early: the body says [inl s] (continue with state
    [s]) or [inr r] (return [r]); [k] is what follows the loop. *)
Fixpoint for_ret {S R : Type} (n : nat) (i : Z) (body : Z -> S -> res (S + R))
  (s : S) (k : S -> res R) : res R :=
  match n with
  | O => k s
  | Datatypes.S n' =>
      x <- body i s ;;
      match x with
      | inl s' => for_ret n' (i + 1) body s' k
      | inr r => Ok r
      end
  end.

Definition cfor_ret {S R : Type} (lo hi : Z) (body : Z -> S -> res (S + R))
  (s : S) (k : S -> res R) : res R :=
  for_ret (Z.to_nat (hi - lo)) lo body s k.

(** ** Arrays: bounds-checked access, out of bounds is UB *)
Fixpoint list_set {A} (n : nat) (v : A) (l : list A) : list A :=
  match l, n with
  | [], _ => []
  | _ :: tl, O => v :: tl
  | h :: tl, S n' => h :: list_set n' v tl
  end.

Definition aget {A} (l : list A) (i : Z) : res A :=
  if i <? 0 then UB
  else match nth_error l (Z.to_nat i) with Some v => Ok v | None => UB end.

Definition aset {A} (l : list A) (i : Z) (v : A) : res (list A) :=
  if (0 <=? i) && (i <? Z.of_nat (List.length l))
  then Ok (list_set (Z.to_nat i) v l) else UB.

(** Two-dimensional access [m[i][j]]. *)
Definition mget {A} (m : list (list A)) (i j : Z) : res A :=
  row <- aget m i ;; aget row j.

Definition mset {A} (m : list (list A)) (i j : Z) (v : A) : res (list (list A)) :=
  row <- aget m i ;; row' <- aset row j v ;; aset m i row'.

Definition zlength {A} (l : list A) : Z := Z.of_nat (List.length l).

(** ** Characters and strings *)
Definition str := list ascii.
Definition lit (s : string) : str := list_ascii_of_string s.
Definition chr (n : nat) : ascii := ascii_of_nat n.
Definition c_nl : ascii := chr 10.
Definition c_tab : ascii := chr 9.
Definition c_sp : ascii := chr 32.
Definition c_cr : ascii := chr 13.
Definition c_hash : ascii := "#"%char.
Definition c_minus : ascii := "-"%char.
Definition c_plus : ascii := "+"%char.
Definition ceqb (a b : ascii) : bool := Ascii.eqb a b.

Fixpoint str_eqb (a b : str) : bool :=
  match a, b with
  | [], [] => true
  | x :: a', y :: b' => ceqb x y && str_eqb a' b'
  | _, _ => false
  end.

(** isspace() in the C locale. *)
Definition is_space (c : ascii) : bool :=
  let n := nat_of_ascii c in
  (Nat.eqb n 32) || ((Nat.leb 9 n) && (Nat.leb n 13)).

Definition is_digit (c : ascii) : bool :=
  let n := nat_of_ascii c in (Nat.leb 48 n) && (Nat.leb n 57).

Definition digit_val (c : ascii) : Z := Z.of_nat (nat_of_ascii c) - 48.
Definition digit_chr (d : Z) : ascii := chr (48 + Z.to_nat d).

(** [for (...) if (!cond(i)) return 0; ... return 1;] *)
Fixpoint forall_loop (n : nat) (i : Z) (cond : Z -> res bool) : res bool :=
  match n with
  | O => Ok true
  | Datatypes.S n' => b <- cond i ;; if b then forall_loop n' (i + 1) cond else Ok false
  end.
Definition cforall (lo hi : Z) (cond : Z -> res bool) : res bool :=
  forall_loop (Z.to_nat (hi - lo)) lo cond.

(** Content of freshly malloc'ed memory: an arbitrary recognisable value, so
    that a forgotten initialisation shows up in the results. *)
Definition POISON : Z := 3735928559.

(** res-valued map over a list, left to right. *)
Fixpoint mapM {A B} (f : A -> res B) (l : list A) : res (list B) :=
  match l with
  | [] => Ok []
  | x :: tl => y <- f x ;; ys <- mapM f tl ;; Ok (y :: ys)
  end.
