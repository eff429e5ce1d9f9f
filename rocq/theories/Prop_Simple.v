(** Property C85: the small example programs. *)
From Coq Require Import ZArith List Bool Reals.
From Coq.Floats Require Import SpecFloat.
From Verif Require Import Num Defs State Nucl Growth Oxid Coag Tar SootModel Qmom Calls CInterface Simple XR F64 NumLaws SpecState SpecChem SpecCoag SpecValid SpecRates SpecGas SpecPsd
  ValidProofs SimpleProofs SimpleMain.
Import ListNotations.
Local Open Scope R_scope.

(** the C++ and the Fortran program, given the same data, print the same numbers (the Fortran program also prints
    the source of C) or end with the same exception; any arithmetic, any values.  [y9] are the nine mass fractions of the
    C++ program; the Fortran program has two more, the first of which must not exceed 1 *)
Theorem C85_same : forall (N : Num), cmpLaws N -> forall (eig : eigSolver) (f t p rho mu : num) (y9 : list num) (a b : num) (yPah bio soot tar : list num) (c : num),
  length y9 = 9%nat -> nltb (nZ 1) a = false -> length yPah = 6%nat -> length bio = 5%nat -> length soot = 2%nat -> length tar = 1%nat ->
  (exists e, simpleCpp eig f t p rho mu y9 yPah soot = Throw e /\ simpleFort eig f t p rho mu (y9 ++ [a; b]) yPah bio soot tar c = Throw e) \/
  (exists q gs, simpleFort eig f t p rho mu (y9 ++ [a; b]) yPah bio soot tar c = Ok (q, gs) /\ length q = 2%nat /\ length gs = 11%nat /\
    simpleCpp eig f t p rho mu y9 yPah soot = Ok (q, firstn 9 gs ++ skipn 10 gs)).
Proof. exact C85_same_. Qed.
Print Assumptions C85_same.
(** both arithmetics are ordered this way *)
Example C85_laws : cmpLaws XR /\ forall lm, cmpLaws (F64 lm).
Proof. split; [exact XR_cmpLaws|exact F64_cmpLaws]. Qed.

(** the ninth mass fraction, called CO2 in a comment of the C++ program and held by the library as C6H6, has no effect *)
Theorem C85_ninth : forall (N : Num), cmpLaws N -> forall (eig : eigSolver) (f t p rho mu : num) (y8 : list num) (a a' : num) (yPah soot : list num),
  length y8 = 8%nat -> length soot = 2%nat -> nltb (nZ 1) a = false -> nltb (nZ 1) a' = false ->
  simpleCpp eig f t p rho mu (y8 ++ [a]) yPah soot = simpleCpp eig f t p rho mu (y8 ++ [a']) yPah soot.
Proof. exact C85_ninth_. Qed.
Print Assumptions C85_ninth.

(** the numbers printed, in exact arithmetic: the rates of nucleation, growth, oxidation and coagulation, and
    C2H2 -> 2 C + H2, C + 1/2 O2 -> CO *)
Theorem C85_values : forall eig f g M0 M1, 0 < f -> physical g -> gCMin g = 100 -> 0 < M0 -> 0 <= M1 ->
  let k := mkMechs N_LL G_LL O_LL C_FM f in
  let x := M1 / M0 in
  let formed := Jnuc k g * nucMass g in
  let grown := kgrow k g M0 M1 * (M0 * sphere x) in
  let burnt := koxid k g M0 M1 * (M0 * sphere x) in
  simpleCpp (N:=XR) eig (Fin f) (Fin (gT g)) (Fin (gP g)) (Fin (gRho g)) (Fin (gMu g))
    (map Fin (map (gY g) [O2; O_; H2; H_; OH; H2O; CO; C2H2; C6H6])) (map Fin (map (gPah g) allPah)) [Fin M0; Fin M1] =
  Ok ([Fin (Jnuc k g - 1 / 2 * kernel k g x x * M0 ^ 2); Fin (formed + grown - burnt)],
      map Fin [- (burnt / massC / 2 * molarMass O2); 0; (formed + grown) / (2 * massC) * molarMass H2; 0; 0; 0;
               burnt / massC * molarMass CO; - ((formed + grown) / (2 * massC) * molarMass C2H2); 0; 0]).
Proof. exact C85_values_. Qed.
Print Assumptions C85_values.
(** the data of the program, as decimal numbers *)
Example C85_data : let y sp := match sp with O2 => 5 / 100 | O_ => 1 / 1000 | H2 => 2 / 1000 | H_ => 3 / 10000 | OH => 3 / 1000 | H2O => 7 / 100 | CO => 1 / 10
    | C2H2 => 2 / 1000 | C6H6 => 18 / 100 | _ => 0 end in
  let g := mkGas 2100 101325 (1 / 10) (1 / 100000) 100 y (fun _ => 0) in
  0 < 9 / 2 / (22 / 10) /\ physical g /\ gCMin g = 100 /\ 0 < 3 / 1000 /\ 0 <= 15 / 1000000.
Proof. exact C85_data_. Qed.

(** the hybrid-method program: undefined behaviour (an access out of bounds) for all data that setState accepts *)
Theorem C85_hmom_refuted : forall (N : Num), cmpLaws N -> forall (eig : eigSolver) (f t p rho mu : num) (yGas yPah soot : list num), length soot = 4%nat ->
  match call (newState 4 0) (mkArgs t p rho mu yGas yPah soot 4 [] 0 (nZ 100)) with
  | SetOk _ => simpleHmom eig f t p rho mu yGas yPah soot = UB OutOfBounds
  | SetThrow e _ => simpleHmom eig f t p rho mu yGas yPah soot = Throw e
  | SetUB => False
  end.
Proof. exact C85_hmom_. Qed.
Print Assumptions C85_hmom_refuted.
Example C85_hmom_data : exists s, call (newState (N:=XR) 4 0) (argsOf demoGas [1; 1; 1; 1] []) = SetOk s /\ gCMin demoGas = 100.
Proof. exact C85_hmom_data_. Qed.

(** the Fortran program asks for the tar data before setState: they are NaN, whatever the biomass, and stay so *)
Theorem C85_tar_data_refuted : forall bio : list xr, length bio = 5%nat -> exists s, fortState (N:=XR) bio = Ok s /\ mtar s = NaN /\ ytar s = NaN /\
  forall a s', call s a = SetOk s' -> mtar s' = NaN /\ ytar s' = NaN.
Proof. exact C85_mtar_. Qed.
Print Assumptions C85_tar_data_refuted.
(** likewise in double precision, when log10 of zero is minus infinity *)
Theorem C85_tar_data_ieee_refuted : forall lm (bio : list spec_float), lm_log10 lm (S754_zero false) = S754_infinity true -> length bio = 5%nat ->
  exists s, fortState (N:=F64 lm) bio = Ok s /\ mtar s = S754_nan /\ ytar s = S754_nan.
Proof. exact C85_mtar_ieee_. Qed.
Print Assumptions C85_tar_data_ieee_refuted.
Example C85_log : exists lm, lm_log10 lm (S754_zero false) = S754_infinity true.
Proof. now exists (mkLibm (fun x => x) (fun x => x) (fun _ => S754_infinity true) (fun x => x) (fun x _ => x)). Qed.
