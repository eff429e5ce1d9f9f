(** Spec vocabulary for programs that use the C interface (C80). *)
From Coq Require Import ZArith List.
From Verif Require Import Num Defs State SootModel Calls CInterface.
Import ListNotations.

Section SpecCalls.
Context {N : Num}.

(** the arrays behind the caller's pointers are long enough and the counts are those
    of the model and the state *)
Definition longEnough (n nt : nat) (a : cAction) : Prop :=
  match a with
  | CSet _ _ _ _ yg yp sv ns tv nT _ =>
      10 <= length yg /\ 6 <= length yp /\ ns = Z.of_nat n /\ n <= length sv /\ nT = Z.of_nat nt /\ nt <= length tv
  | CSrc _ => True
  end.

(** the C++ call with the same effect: ten gases, six PAHs, and cMin is 100 *)
Definition sameInCpp (n nt : nat) (a : cAction) : action :=
  match a with
  | CSet t p rho mu yg yp sv ns tv nT _ =>
      ASet t p rho mu (firstn 10 yg) (firstn 6 yp) (firstn n sv) (Z.of_nat n) (firstn nt tv) (Z.of_nat nt) (nZ 100)
  | CSrc eig => ASrc eig
  end.

(** the C++ call is refused: setState throws [e] *)
Definition refused (n nt : nat) (s : state) (a : cAction) (e : exn) : Prop :=
  match a with
  | CSet t p rho mu yg yp sv ns tv nT _ =>
      exists s', setState s t p rho mu (firstn 10 yg) (firstn 6 yp) (firstn n sv) (Z.of_nat n) (firstn nt tv) (Z.of_nat nt) (nZ 100)
                 = SetThrow e s'
  | CSrc _ => False
  end.

(** a buffer after the first entries have been overwritten *)
Definition overwritten (buf src : list num) : list num := src ++ skipn (length src) buf.

End SpecCalls.
