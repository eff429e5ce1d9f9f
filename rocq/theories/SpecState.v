(** Specification vocabulary for setState (properties C01-C06).
    Nothing here uses the model's helper functions. *)
From Coq Require Import ZArith List Bool.
From Verif Require Import Num Defs State.
Import ListNotations.

Section SpecState.
Context {N : Num}.

(** the arguments of one call *)
Record args := mkArgs {
  aT : num; aP : num; arho : num; amu : num; ayGas : list num; ayPah : list num;
  asoot : list num; ansoot : Z; atar : list num; aNtar : Z; acMin : num }.
Definition call (s : state) (a : args) : setOutcome :=
  setState s (aT a) (aP a) (arho a) (amu a) (ayGas a) (ayPah a) (asoot a) (ansoot a) (atar a) (aNtar a) (acMin a).

(** what is needed of the comparison operators (true of IEEE doubles) *)
Record cmpLaws : Prop := {
  lt_irr : forall x, nltb x x = false;
  lt_trans : forall x y z, nltb x y = true -> nltb y z = true -> nltb x z = true;
  lt_01 : nltb (nZ 0) (nZ 1) = true }.

(** x == x of C++: x is not NaN *)
Definition notNaN (x : num) : Prop := neqb x x = true.
(** comparison of values that are not NaN is total (true of IEEE doubles) *)
Record ordLaws : Prop := {
  not_lt : forall x y, notNaN x -> notNaN y -> nltb x y = false -> nleb y x = true;
  not_le : forall x y, notNaN x -> notNaN y -> nleb x y = false -> nltb y x = true;
  lit_notNaN : forall z, (-2 <= z <= 2)%Z -> notNaN (nZ z) }.

(** some entry at a position >= n is negative *)
Definition negFrom (n : Z) (v : list num) : Prop :=
  exists i x, nth_error v i = Some x /\ (n <= Z.of_nat i)%Z /\ nltb x (nZ 0) = true.

(** the documented input checks, in the order of the code, with their exception *)
Definition checks (s : state) (a : args) : list (exn * Prop) :=
  [ (EDomT, nleb (aT a) (nZ 0) = true);
    (EDomP, nleb (aP a) (nZ 0) = true);
    (EDomRho, nleb (arho a) (nZ 0) = true);
    (EDomMu, nleb (amu a) (nZ 0) = true);
    (EDomCMin, nleb (acMin a) (nZ 0) = true);
    (EDomSoot, negFrom (st_nsoot s) (asoot a));
    (EDomTar, negFrom (st_Ntar s) (atar a));
    (EDomGas, exists y, In y (ayGas a) /\ nltb (nZ 1) y = true);
    (EDomPahSize, length (ayPah a) <> length (yPah s));
    (EDomPah, exists y, In y (ayPah a) /\ (nltb y (nZ 0) = true \/ nltb (nZ 1) y = true));
    (EDomPahSum, nltb (nZ 1) (fold_left nadd (ayPah a) (nZ 0)) = true) ].

Definition accepts (s : state) (a : args) : Prop :=
  forall e p, In (e, p) (checks s a) -> ~ p.
Definition firstFails (s : state) (a : args) (e : exn) : Prop :=
  exists l1 p l2, checks s a = l1 ++ (e, p) :: l2 /\ p /\ forall e' p', In (e', p') l1 -> ~ p'.

(** the vector v with the negative entries below position n replaced by 0 *)
Definition isClipped (n : Z) (v w : list num) : Prop :=
  length w = length v /\
  forall i x, nth_error v i = Some x ->
    nth_error w i = Some (if (Z.of_nat i <? n)%Z && nltb x (nZ 0) then nZ 0 else x).

(** fields that setState never writes *)
Definition sameRest (s s' : state) : Prop :=
  absc s' = absc s /\ wts s' = wts s /\ sootScales s' = sootScales s /\ yBio s' = yBio s /\
  mtar s' = mtar s /\ ytar s' = ytar s /\ OC s' = OC s /\ HC s' = HC s /\ V s' = V s.

(** the object after a normal return *)
Definition stored (s : state) (a : args) (s' : state) : Prop :=
  T s' = aT a /\ P s' = aP a /\ rhoGas s' = arho a /\ muGas s' = amu a /\ cMin s' = acMin a /\
  MWGas s' = ndiv (nmul (nmul (arho a) Rg) (aT a)) (aP a) /\
  st_nsoot s' = ansoot a /\ isClipped (st_nsoot s) (asoot a) (sootVar s') /\
  st_Ntar s' = aNtar a /\ isClipped (st_Ntar s) (atar a) (tarVar s') /\
  yGas s' = ayGas a /\ yPah s' = ayPah a /\ sameRest s s'.

(** how far a throwing call got: number of steps
    T,P,rho,mu,cMin(+MWGas),nsoot,sootVar,Ntar,tarVar,yGas completed *)
Definition progress (e : exn) : nat :=
  match e with
  | EDomT => 0 | EDomP => 1 | EDomRho => 2 | EDomMu => 3 | EDomCMin => 4
  | EDomSoot => 6 | EDomTar => 8 | EDomGas => 9
  | _ => 10
  end.
Definition upto {A} (k : nat) (e : exn) (new old : A) : A := if Nat.leb k (progress e) then new else old.

(** the object after a throw of e *)
Definition afterThrow (s : state) (a : args) (e : exn) (s' : state) : Prop :=
  T s' = upto 1 e (aT a) (T s) /\
  P s' = upto 2 e (aP a) (P s) /\
  rhoGas s' = upto 3 e (arho a) (rhoGas s) /\
  muGas s' = upto 4 e (amu a) (muGas s) /\
  cMin s' = upto 5 e (acMin a) (cMin s) /\
  MWGas s' = upto 5 e (ndiv (nmul (nmul (arho a) Rg) (aT a)) (aP a)) (MWGas s) /\
  st_nsoot s' = upto 6 e (ansoot a) (st_nsoot s) /\
  (if Nat.leb 7 (progress e) then isClipped (st_nsoot s) (asoot a) (sootVar s') else sootVar s' = sootVar s) /\
  st_Ntar s' = upto 8 e (aNtar a) (st_Ntar s) /\
  (if Nat.leb 9 (progress e) then isClipped (st_Ntar s) (atar a) (tarVar s') else tarVar s' = tarVar s) /\
  yGas s' = upto 10 e (ayGas a) (yGas s) /\
  yPah s' = yPah s /\ sameRest s s'.

(** scalars that pass *)
Definition scalarsOk (a : args) : Prop :=
  nleb (aT a) (nZ 0) = false /\ nleb (aP a) (nZ 0) = false /\ nleb (arho a) (nZ 0) = false /\
  nleb (amu a) (nZ 0) = false /\ nleb (acMin a) (nZ 0) = false.

(** both objects give the user the same documented fields *)
Definition sameUserFields (s1 s2 : state) : Prop :=
  T s1 = T s2 /\ P s1 = P s2 /\ rhoGas s1 = rhoGas s2 /\ muGas s1 = muGas s2 /\ cMin s1 = cMin s2 /\
  MWGas s1 = MWGas s2 /\ st_nsoot s1 = st_nsoot s2 /\ sootVar s1 = sootVar s2 /\
  st_Ntar s1 = st_Ntar s2 /\ tarVar s1 = tarVar s2 /\ yGas s1 = yGas s2 /\ yPah s1 = yPah s2.

(** no entry is < 0 (NaN allowed) *)
Definition nonneg (v : list num) : Prop := forall x, In x v -> nltb x (nZ 0) = false.
Definition positive (x : num) : Prop := nltb (nZ 0) x = true.

End SpecState.
Arguments args : clear implicits.
Arguments cmpLaws : clear implicits.
Arguments ordLaws : clear implicits.
