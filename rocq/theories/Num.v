(** Numbers, outcomes and vectors used by every model file.

    [Num] abstracts the C++ type [double]: its operations, the comparison
    operators of C++ (as booleans), the <cmath> functions used by sootlib and
    decimal literals.  Every model function is generic in [Num]; see XR.v and
    F64.v for the instances. *)
From Coq Require Import ZArith List Bool.
Import ListNotations.

Class Num := {
  num    : Type;
  nlit   : Z -> Z -> num;           (** decimal literal [m * 10^e], correctly rounded *)
  nadd   : num -> num -> num;       (** x + y *)
  nsub   : num -> num -> num;       (** x - y *)
  nmul   : num -> num -> num;       (** x * y *)
  ndiv   : num -> num -> num;       (** x / y *)
  nopp   : num -> num;              (** - x *)
  nabs   : num -> num;              (** std::abs *)
  nsqrt  : num -> num;              (** std::sqrt *)
  nexp   : num -> num;              (** std::exp *)
  nlog   : num -> num;              (** std::log *)
  nlog10 : num -> num;              (** std::log10 *)
  ntanh  : num -> num;              (** std::tanh *)
  npow   : num -> num -> num;       (** std::pow *)
  nltb   : num -> num -> bool;      (** x < y *)
  nleb   : num -> num -> bool;      (** x <= y *)
  neqb   : num -> num -> bool;      (** x == y *)
  nfin   : num -> bool;             (** std::isfinite *)
  ntrunc : num -> option nat        (** static_cast<size_t>(x); [None] = undefined behaviour *)
}.

Declare Scope num_scope.
Delimit Scope num_scope with num.
Bind Scope num_scope with num.
Infix "+" := nadd : num_scope.
Infix "-" := nsub : num_scope.
Infix "*" := nmul : num_scope.
Infix "/" := ndiv : num_scope.
Notation "- x" := (nopp x) : num_scope.
(** [x > y] and [x >= y] of C++ *)
Notation ngtb x y := (nltb y x) (only parsing).
Notation ngeb x y := (nleb y x) (only parsing).
(** conversion of an integer (literal or variable) to double *)
Definition nZ {N : Num} (z : Z) : num := nlit z 0.
Definition nn {N : Num} (k : nat) : num := nlit (Z.of_nat k) 0.

(** ** Outcomes *)

Inductive exn :=
| EDomT | EDomP | EDomRho | EDomMu | EDomCMin | EDomSoot | EDomTar
| EDomGas | EDomPahSize | EDomPah | EDomPahSum          (** std::domain_error of setState *)
| EDomNucl | EDomGrow | EDomOxid | EDomCoag | EDomTarMech (** std::domain_error of the enum constructor *)
| ERunNsoot | ERunTar | ERunCoag                         (** std::runtime_error of the constructors *)
| ERunBinomial                                           (** std::runtime_error of binomial_coefficient *)
| ERunM0                                                 (** sootModel::get_M0_sectional *)
| EInterp.                                               (** Linear_interp constructor *)

Inductive ub :=
| OutOfBounds       (** vector index outside [0,size) *)
| BadCast           (** floating value not representable in the integer type *)
| Uninit            (** read of an uninitialised value *)
| Dangling.         (** use of a destroyed object *)

(** Result of a C++ call: normal return, exception, undefined behaviour. *)
Inductive res (A : Type) :=
| Ok (a : A)
| Throw (e : exn)
| UB (u : ub).
Arguments Ok {A} a.
Arguments Throw {A} e.
Arguments UB {A} u.

Definition bind {A B} (m : res A) (k : A -> res B) : res B :=
  match m with Ok a => k a | Throw e => Throw e | UB u => UB u end.
Notation "x <- m ;; k" := (bind m (fun x => k))
  (at level 61, m at next level, right associativity).
Notation "' p <- m ;; k" := (bind m (fun x => match x with p => k end))
  (at level 61, p pattern, m at next level, right associativity).

(** ** Vectors: [v[i]] and [v[i] = x] of std::vector *)

Definition vget {A} (v : list A) (i : nat) : res A :=
  match nth_error v i with Some x => Ok x | None => UB OutOfBounds end.

(** index computed in [int]; a negative one wraps to a huge unsigned value *)
Definition vgetZ {A} (v : list A) (i : Z) : res A :=
  if (i <? 0)%Z then UB OutOfBounds else vget v (Z.to_nat i).

Fixpoint upd {A} (v : list A) (i : nat) (x : A) : list A :=
  match v, i with
  | [], _ => []
  | _ :: t, O => x :: t
  | h :: t, S i' => h :: upd t i' x
  end.

Definition vset {A} (v : list A) (i : nat) (x : A) : res (list A) :=
  if Nat.ltb i (length v) then Ok (upd v i x) else UB OutOfBounds.

(** [for (k : l) s = f(s,k)] *)
Fixpoint foldM {A S} (f : S -> A -> res S) (l : list A) (s : S) : res S :=
  match l with
  | [] => Ok s
  | a :: t => s' <- f s a ;; foldM f t s'
  end.

(** fill a vector: [for (k : l) v[k] = f(k)] *)
Fixpoint mapM {A B} (f : A -> res B) (l : list A) : res (list B) :=
  match l with
  | [] => Ok []
  | a :: t => b <- f a ;; bs <- mapM f t ;; Ok (b :: bs)
  end.

Definition zeros {N : Num} (n : nat) : list num := repeat (nZ 0) n.

(** sum from left to right, starting from 0: [s=0; for (x : l) s += x] *)
Definition nsum {N : Num} (l : list num) : num := fold_left nadd l (nZ 0).

(** expressions over vector reads: operators lifted to [res] *)
Definition lift2 {A B C} (f : A -> B -> C) (x : res A) (y : res B) : res C :=
  a <- x ;; b <- y ;; Ok (f a b).
Definition radd {N : Num} := lift2 nadd.
Definition rmul {N : Num} := lift2 nmul.
Infix "+!" := radd (at level 50, left associativity).
Infix "*!" := rmul (at level 40, left associativity).
