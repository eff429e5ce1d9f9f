(** Instance of [Num]: IEEE 754 binary64, from the standard library's SpecFloat
    (round to nearest even, signed zeros, subnormals, overflow; one NaN).  The
    <cmath> functions that IEEE 754 does not fix are an arbitrary [libm]. *)
From Coq Require Import ZArith List Bool.
From Coq.Floats Require Import SpecFloat.
From Verif Require Import Num.
Local Open Scope Z_scope.

Definition prec64 : Z := 53.
Definition emax64 : Z := 1024.

Record libm := mkLibm {
  lm_exp : spec_float -> spec_float;
  lm_log : spec_float -> spec_float;
  lm_log10 : spec_float -> spec_float;
  lm_tanh : spec_float -> spec_float;
  lm_pow : spec_float -> spec_float -> spec_float }.

(** decimal literal m * 10^e, correctly rounded *)
Definition f64lit (m e : Z) : spec_float :=
  match e with
  | Zneg p =>
      match m with
      | Z0 => S754_zero false
      | Zpos a | Zneg a =>
          let '(q, e', l) := SFdiv_core_binary prec64 emax64 (Zpos a) 0 (Z.pow_pos 10 p) 0 in
          binary_round_aux prec64 emax64 (Z.ltb m 0) q e' l
      end
  | _ => binary_normalize prec64 emax64 (m * 10 ^ e) 0 false
  end.

Definition f64fin (x : spec_float) : bool :=
  match x with S754_zero _ | S754_finite _ _ _ => true | _ => false end.

(** static_cast<size_t> *)
Definition f64trunc (x : spec_float) : option nat :=
  match x with
  | S754_zero _ => Some 0%nat
  | S754_finite s m e =>
      let z := Z.shiftl (Zpos m) e in
      if s then (if z =? 0 then Some 0%nat else None)
      else if z <? 2 ^ 64 then Some (Z.to_nat z) else None
  | _ => None
  end.

Definition F64 (lm : libm) : Num := {|
  num := spec_float;
  nlit := f64lit;
  nadd := SFadd prec64 emax64; nsub := SFsub prec64 emax64; nmul := SFmul prec64 emax64;
  ndiv := SFdiv prec64 emax64; nopp := SFopp; nabs := SFabs; nsqrt := SFsqrt prec64 emax64;
  nexp := lm_exp lm; nlog := lm_log lm; nlog10 := lm_log10 lm; ntanh := lm_tanh lm; npow := lm_pow lm;
  nltb := SFltb; nleb := SFleb; neqb := SFeqb; nfin := f64fin; ntrunc := f64trunc |}.
