(** Specification vocabulary for conservation in double precision (C84). *)
From Coq Require Import ZArith List Reals.
From Coq.Floats Require Import SpecFloat.
From Verif Require Import Num Defs XR F64 SpecBinomial SpecState SpecChem SpecCoag SpecValid SpecRates SpecGas SpecPsd SpecRound.
Import ListNotations.
Local Open Scope R_scope.

(** the reals that the gas sources stand for *)
Definition gasRates (gs : list spec_float) (sp : gasSp) : R := sfVal (nth (gasIdx sp) gs (S754_zero false)).
(** soot mass formed by nucleation and growth plus soot mass burnt, per time: the exact rates for the arguments [a] *)
Definition turnover {lm} (k : mechs) (a : args (F64 lm)) : R :=
  let area := soot0 a * sphere (soot1 a / soot0 a) in
  Jnuc k (gasOf a) * nucMass (gasOf a) + kgrow k (gasOf a) (soot0 a) (soot1 a) * area + koxid k (gasOf a) (soot0 a) (soot1 a) * area.
