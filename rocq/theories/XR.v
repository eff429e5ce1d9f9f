(** Instance of [Num]: real numbers with +inf, -inf and NaN.

    Exceptional values follow IEEE 754 and C99 Annex F; results that are finite
    real numbers are exact (no rounding, overflow or underflow).  Zero is unsigned
    and behaves as +0. *)
From Coq Require Import ZArith List Bool Reals.
From Verif Require Import Num.
Local Open Scope R_scope.

Inductive xr := Fin (r : R) | PInf | NInf | NaN.

(** decimal literal m * 10^e *)
Definition rlit (m e : Z) : R :=
  match e with
  | Z0 => IZR m
  | Zpos p => IZR (m * Z.pow_pos 10 p)
  | Zneg p => IZR m / IZR (Z.pow_pos 10 p)
  end.

Definition xopp (x : xr) : xr :=
  match x with Fin a => Fin (- a) | PInf => NInf | NInf => PInf | NaN => NaN end.

Definition xadd (x y : xr) : xr :=
  match x, y with
  | Fin a, Fin b => Fin (a + b)
  | NaN, _ | _, NaN => NaN
  | PInf, NInf | NInf, PInf => NaN
  | PInf, _ | _, PInf => PInf
  | NInf, _ | _, NInf => NInf
  end.
Definition xsub (x y : xr) : xr :=
  match x, y with
  | Fin a, Fin b => Fin (a - b)
  | _, _ => xadd x (xopp y)
  end.

(** infinity with the sign of a; [z] if a = 0 *)
Definition signed (a : R) (z : xr) : xr :=
  if Rlt_dec 0 a then PInf else if Rlt_dec a 0 then NInf else z.

Definition xmul (x y : xr) : xr :=
  match x, y with
  | Fin a, Fin b => Fin (a * b)
  | NaN, _ | _, NaN => NaN
  | PInf, PInf | NInf, NInf => PInf
  | PInf, NInf | NInf, PInf => NInf
  | PInf, Fin a | Fin a, PInf => signed a NaN
  | NInf, Fin a | Fin a, NInf => signed (- a) NaN
  end.

Definition xdiv (x y : xr) : xr :=
  match x, y with
  | NaN, _ | _, NaN => NaN
  | Fin a, Fin b => if Req_EM_T b 0 then signed a NaN else Fin (a / b)
  | Fin _, (PInf | NInf) => Fin 0
  | PInf, Fin b => signed b PInf
  | NInf, Fin b => signed (- b) NInf
  | (PInf | NInf), (PInf | NInf) => NaN
  end.

Definition xabs (x : xr) : xr :=
  match x with Fin a => Fin (Rabs a) | PInf | NInf => PInf | NaN => NaN end.

Definition xsqrt (x : xr) : xr :=
  match x with
  | Fin a => if Rlt_dec a 0 then NaN else Fin (sqrt a)
  | PInf => PInf
  | NInf | NaN => NaN
  end.
Definition xexp (x : xr) : xr :=
  match x with Fin a => Fin (exp a) | PInf => PInf | NInf => Fin 0 | NaN => NaN end.
Definition xlog (x : xr) : xr :=
  match x with
  | Fin a => if Rlt_dec 0 a then Fin (ln a) else if Req_EM_T a 0 then NInf else NaN
  | PInf => PInf
  | NInf | NaN => NaN
  end.
Definition xlog10 (x : xr) : xr :=
  match x with
  | Fin a => if Rlt_dec 0 a then Fin (ln a / ln 10) else if Req_EM_T a 0 then NInf else NaN
  | PInf => PInf
  | NInf | NaN => NaN
  end.
Definition xtanh (x : xr) : xr :=
  match x with Fin a => Fin (tanh a) | PInf => Fin 1 | NInf => Fin (-1) | NaN => NaN end.

(** is the real an integer / an odd integer *)
Definition isInt (b : R) : bool := if Req_EM_T (IZR (Int_part b)) b then true else false.
Definition isOdd (b : R) : bool := isInt b && Z.odd (Int_part b).

(** std::pow, C99 F.9.4.4 *)
Definition xpow (x y : xr) : xr :=
  match x, y with
  | _, Fin b =>
      if Req_EM_T b 0 then Fin 1 else
      match x with
      | Fin a =>
          if Rlt_dec 0 a then Fin (Rpower a b)
          else if Req_EM_T a 0 then (if Rlt_dec 0 b then Fin 0 else PInf)
          else if isInt b then Fin (powerRZ a (Int_part b)) else NaN
      | PInf => if Rlt_dec 0 b then PInf else Fin 0
      | NInf => if Rlt_dec 0 b then (if isOdd b then NInf else PInf) else Fin 0
      | NaN => NaN
      end
  | Fin a, PInf => if Req_EM_T (Rabs a) 1 then Fin 1 else if Rlt_dec (Rabs a) 1 then Fin 0 else PInf
  | Fin a, NInf => if Req_EM_T (Rabs a) 1 then Fin 1 else if Rlt_dec (Rabs a) 1 then PInf else Fin 0
  | Fin a, NaN => if Req_EM_T a 1 then Fin 1 else NaN
  | (PInf | NInf), PInf => PInf
  | (PInf | NInf), NInf => Fin 0
  | _, _ => NaN
  end.

Definition xltb (x y : xr) : bool :=
  match x, y with
  | Fin a, Fin b => if Rlt_dec a b then true else false
  | NInf, Fin _ | NInf, PInf | Fin _, PInf => true
  | _, _ => false
  end.
Definition xleb (x y : xr) : bool :=
  match x, y with
  | Fin a, Fin b => if Rle_dec a b then true else false
  | NInf, (NInf | Fin _ | PInf) | Fin _, PInf | PInf, PInf => true
  | _, _ => false
  end.
Definition xeqb (x y : xr) : bool :=
  match x, y with
  | Fin a, Fin b => if Req_EM_T a b then true else false
  | PInf, PInf | NInf, NInf => true
  | _, _ => false
  end.
Definition xfin (x : xr) : bool := match x with Fin _ => true | _ => false end.

(** conversion to a 64-bit size_t: truncation toward zero, undefined unless the
    truncated value is representable *)
Definition xtrunc (x : xr) : option nat :=
  match x with
  | Fin a =>
      if Rlt_dec (-1) a then
        if Rlt_dec a (IZR (2 ^ 64)) then
          if Rlt_dec a 0 then Some 0%nat else Some (Z.to_nat (Int_part a))
        else None
      else None
  | _ => None
  end.

#[global] Instance XR : Num := {|
  num := xr;
  nlit m e := Fin (rlit m e);
  nadd := xadd; nsub := xsub; nmul := xmul; ndiv := xdiv; nopp := xopp; nabs := xabs;
  nsqrt := xsqrt; nexp := xexp; nlog := xlog; nlog10 := xlog10; ntanh := xtanh; npow := xpow;
  nltb := xltb; nleb := xleb; neqb := xeqb; nfin := xfin; ntrunc := xtrunc |}.
