(** C64: free-molecular coagulation of MOMIC against the collisions of a population. *)
From Coq Require Import ZArith List Bool Reals Lra Lia.
From Verif Require Import Num Defs State Coag Nucl SootModel Calls XR SpecCoag SpecValid SpecRates SpecPsd SpecSect SpecQmom SpecLogn SpecMomic SpecPairs ValidProofs PairsMain.
Import ListNotations.
Local Open Scope R_scope.

(** the grid functions at whole l are exact collision sums *)
Theorem C64_grid : forall w x p q l, (forall i, (i < length w)%nat -> 0 < el x i) ->
  gridInt (popMoment w x) (popMoment w x) p q l = collisions w x p q (INR l).
Proof. exact grid_pop. Qed.
Print Assumptions C64_grid.
(** l = 1/2 is the free-molecular kernel *)
Theorem C64_kernel : forall s g soot f w x p q, valid s g soot -> (forall i, (i < length w)%nat -> 0 < el x i) ->
  pairs w x (fun a b => a ^ p * b ^ q * betaFM f (gT g) a b) = kFM f g * collisions w x p q (1 / 2).
Proof. exact fm_pairs. Qed.
Print Assumptions C64_kernel.
(** interpolation on two points never underestimates the collisions *)
Theorem C64_two_points : forall w x p q y, somePopulation w x -> (4 <= y)%nat ->
  collisions w x p q (1 / 2) <= gridHalf (popMoment w x) (popMoment w x) p q y.
Proof. exact two_over. Qed.
Print Assumptions C64_two_points.
(** on three points it lies between the same two bounds as the exact sum *)
Theorem C64_three_points : forall w x p q, somePopulation w x ->
  let lo := Rpower (collisions w x p q 1) (3 / 2) * Rpower (collisions w x p q 2) (- (1 / 2)) in
  let hi := sqrt (collisions w x p q 0 * collisions w x p q 1) in
  lo <= collisions w x p q (1 / 2) <= hi /\ lo <= gridHalf (popMoment w x) (popMoment w x) p q 3 <= hi.
Proof. exact three_both. Qed.
Print Assumptions C64_three_points.
(** coagulation alone: a call lowers the number, keeps the mass and raises every higher moment *)
Theorem C64_call : forall (m : model (N:=XR)) s g k M st eig, readyMomic m s g k M -> SpecMomic.allPos M -> mN k = N_NONE -> mG k = G_NONE -> mO k = O_NONE ->
  exists m' y, setSourceTerms st eig m s = Ok (st, m', s) /\ soots m' = map Fin y /\ length y = length M /\
    el y 0 < 0 /\ el y 1 = 0 /\ forall r, (2 <= r < length M)%nat -> 0 < el y r.
Proof. exact pure_call. Qed.
Print Assumptions C64_call.

(** cases: two sizes; a free-molecular model built by the constructor *)
Example C64_population : somePopulation [1; 2] [3; 5].
Proof. split; [cbn; lia|]. intros i Hi. cbn in Hi. destruct i as [|[|i]]; [| |lia]; unfold el; cbn [nth]; lra. Qed.
Example C64_case : exists (m : model (N:=XR)) s, constructEnum P_MOMIC 5 N_NONE G_NONE O_NONE C_FM 0 T_NONE (Fin 2) 100 = Ok m /\
  readyMomic m s demoGas (mkMechs N_NONE G_NONE O_NONE C_FM 1) [2; 3; 7; 50; 400] /\ SpecMomic.allPos [2; 3; 7; 50; 400].
Proof.
  assert (A : SpecMomic.allPos [2; 3; 7; 50; 400]) by (intros x [<-|[<-|[<-|[<-|[<-|[]]]]]]; lra).
  destruct (pure_case C_FM [2; 3; 7; 50; 400]) as (m & s & E & R); auto. { cbn; lia. } { intros y Hy. apply Rlt_le. auto. }
  exists m, s. auto.
Qed.
