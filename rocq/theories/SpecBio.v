(** Specification vocabulary for the tar correlations of biomass and coal (C62): ratios of
    polynomials, written out as monomials with decimal coefficients. *)
From Coq Require Import Reals List.
Import ListNotations.
Local Open Scope R_scope.

Definition m2 (c : R) (i j : nat) : R * nat * nat := (c, i, j).
Definition m5 (c : R) (i j k m n : nat) : R * nat * nat * nat * nat * nat := (c, i, j, k, m, n).
(** coefficient, power of temperature (K), power of log10 of the pressure in atmospheres *)
Definition poly (l : list (R * nat * nat)) (t x : R) : R :=
  fold_right (fun '(c, i, j) a => c * t ^ i * x ^ j + a) 0 l.

(** constituents of biomass, in the order of yBio *)
Inductive bio := Cellulose | HwHemi | SwHemi | HwLignin | SwLignin.
Definition allBio : list bio := [Cellulose; HwHemi; SwHemi; HwLignin; SwLignin].

(** tar yield (mass fraction): numerator and denominator *)
Definition yieldNum (b : bio) : list (R * nat * nat) :=
  match b with
  | Cellulose => [m2 (-157000) 0 0; m2 (290.6) 1 0; m2 (-0.022) 2 0; m2 (8) 1 1; m2 (0.000036) 3 0; m2 (-0.036) 2 1]
  | HwHemi => [m2 (-521000) 0 0; m2 (3120) 1 0; m2 (-1080) 1 1; m2 (-0.382) 2 0; m2 (0.207) 2 1]
  | SwHemi => [m2 (70500) 0 0; m2 (-0.0000129) 0 1; m2 (144.4) 1 0; m2 (0.233) 2 0; m2 (-0.0000741) 3 0]
  | HwLignin => [m2 (90400) 0 0; m2 (-34300) 0 1; m2 (-76.2) 1 0; m2 (36.6) 1 1; m2 (0.00603) 2 0; m2 (-0.011) 2 1; m2 (0.00000769) 3 0]
  | SwLignin => [m2 (470.5) 0 0; m2 (-165.4) 0 1; m2 (-0.303) 1 0; m2 (0.124) 1 1; m2 (0.0000322) 2 0; m2 (0.00000000646) 3 0; m2 (-0.0000237) 2 1]
  end.
Definition yieldDen (b : bio) : list (R * nat * nat) :=
  match b with
  | Cellulose => [m2 (-203000) 0 0; m2 (382.9) 1 0; m2 (11.2) 1 1; m2 (0.0000453) 3 0; m2 (-0.042) 2 1]
  | HwHemi => [m2 (5750) 1 0; m2 (-2650) 1 1; m2 (-0.000145) 3 0; m2 (-0.518) 2 1]
  | SwHemi => [m2 (369000) 0 0; m2 (-322000) 0 1; m2 (91) 1 0; m2 (0.725) 2 0; m2 (-0.000208) 3 0]
  | HwLignin => [m2 (137000) 0 0; m2 (-36600) 0 1; m2 (-117.5) 1 0; m2 (39.3) 1 1; m2 (0.012) 2 0; m2 (0.00001) 3 0; m2 (-0.012) 2 1]
  | SwLignin => [m2 (735.3) 0 0; m2 (-176) 0 1; m2 (-0.55) 1 0; m2 (0.133) 1 1; m2 (0.000105) 2 0; m2 (-0.0000256) 2 1]
  end.
(** mean molar mass of the tar (kg/kmol) *)
Definition massNum (b : bio) : list (R * nat * nat) :=
  match b with
  | Cellulose => [m2 (-30600) 0 0; m2 (242.2) 1 0; m2 (10500) 0 1; m2 (-83.1) 1 1; m2 (-1840) 0 2; m2 (461.8) 0 3]
  | HwHemi => [m2 (236.7) 1 0; m2 (-59200) 0 1]
  | SwHemi => [m2 (50) 1 0; m2 (26) 1 1; m2 (-64100) 0 1; m2 (15600) 0 2]
  | HwLignin => [m2 (4780000) 0 0; m2 (-8400) 1 0; m2 (7.36) 2 0; m2 (-0.00123) 3 0; m2 (-573.1) 1 1; m2 (3390000) 0 2; m2 (340.1) 1 2; m2 (-485000) 0 3]
  | SwLignin => [m2 (115.8) 0 0; m2 (0.117) 1 0; m2 (-0.0000386) 2 0; m2 (0.00346) 1 1; m2 (-29.7) 0 1; m2 (-2.16) 0 2]
  end.
Definition massDen (b : bio) : list (R * nat * nat) :=
  match b with
  | Cellulose => [m2 (0.635) 1 0; m2 (-0.145) 1 1; m2 (0.021) 1 2; m2 (-2.78) 0 3]
  | HwHemi => [m2 (0.608) 1 0; m2 (-109.4) 0 1]
  | SwHemi => [m2 (0.126) 1 0; m2 (0.072) 1 1; m2 (-1650) 0 1; m2 (41.3) 0 2]
  | HwLignin => [m2 (8.13) 1 0; m2 (14700) 0 2; m2 (-2.64) 1 2; m2 (997.9) 0 3]
  | SwLignin => [m2 (0.887) 0 0; m2 (-0.000219) 1 0; m2 (0.106) 0 1; m2 (-0.00004) 1 1]
  end.

Definition yield (b : bio) (t x : R) : R := poly (yieldNum b) t x / poly (yieldDen b) t x.
Definition tarMass (b : bio) (t x : R) : R := poly (massNum b) t x / poly (massDen b) t x.
(** log10 of the pressure in atmospheres *)
Definition atmLog (p : R) : R := ln (p / 101325) / ln 10.
(** no correlation is at a pole *)
Definition noPole (t x : R) : Prop := forall b, poly (yieldDen b) t x <> 0 /\ poly (massDen b) t x <> 0.
(** mean over the constituents with mass fractions [y] *)
Definition bioMean (f : bio -> R) (y : bio -> R) : R := fold_right (fun b a => y b * f b + a) 0 allBio.

(** coal: coefficient and powers of temperature, pressure logarithm, O/C, H/C and volatile matter *)
Definition cpoly (l : list (R * nat * nat * nat * nat * nat)) (t x o h v : R) : R :=
  fold_right (fun '(c, i, j, k, m, n) a => c * t ^ i * x ^ j * o ^ k * h ^ m * v ^ n + a) 0 l.
Definition coalYieldNum : list (R * nat * nat * nat * nat * nat) :=
  [m5 (-124.2) 0 0 0 0 0; m5 (35.7) 0 1 0 0 0; m5 (93.5) 0 0 1 0 0; m5 (-223.9) 0 0 2 0 0; m5 (284.8) 0 0 0 1 0;
   m5 (-107.3) 0 0 0 2 0; m5 (5.48) 0 0 0 0 1; m5 (0.014) 0 0 0 0 2; m5 (-58.2) 0 1 0 1 0; m5 (-0.521) 0 1 0 0 1; m5 (-5.32) 0 0 0 1 1].
Definition coalYieldDen : list (R * nat * nat * nat * nat * nat) :=
  [m5 (-303.8) 0 0 0 0 0; m5 (52.4) 0 1 0 0 0; m5 (1550) 0 0 1 0 0; m5 (-2460) 0 0 2 0 0; m5 (656.9) 0 0 0 1 0;
   m5 (-266.3) 0 0 0 2 0; m5 (15.9) 0 0 0 0 1; m5 (0.025) 0 0 0 0 2; m5 (-90) 0 1 0 1 0; m5 (-462.5) 0 0 1 1 0;
   m5 (4.8) 0 0 1 0 1; m5 (-17.8) 0 0 0 1 1].
Definition coalMassNum : list (R * nat * nat * nat * nat * nat) :=
  [m5 (312000) 0 0 0 0 0; m5 (16.4) 1 0 0 0 0; m5 (434000) 0 0 1 0 0; m5 (-848000) 0 0 0 1 0; m5 (638000) 0 0 0 2 0;
   m5 (-361.3) 0 0 0 0 1; m5 (-0.221) 1 0 0 0 1; m5 (-639000) 0 0 1 1 0; m5 (1910) 0 0 0 1 1].
Definition coalMassDen : list (R * nat * nat * nat * nat * nat) :=
  [m5 (753.6) 0 0 0 0 0; m5 (0.042) 1 0 0 0 0; m5 (83.9) 0 0 1 0 0; m5 (-1770) 0 0 0 1 0; m5 (1200) 0 0 0 2 0;
   m5 (0.00509) 1 1 0 0 0; m5 (-0.024) 1 0 0 1 0; m5 (-0.000527) 1 0 0 0 1; m5 (0.513) 0 1 0 0 1; m5 (-361) 0 0 1 1 0; m5 (3.83) 0 0 0 1 1].
