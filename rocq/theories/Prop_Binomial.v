(** Property C07: binomial_coefficient. *)
From Coq Require Import ZArith List Bool Reals.
From Coq.Floats Require Import SpecFloat.
From Verif Require Import Num Binomial XR F64 SpecBinomial BinomialProofs.
Local Open Scope Z_scope.

(** The arguments are 32-bit unsigned integers.  Throwing and memory safety, in every arithmetic *)
Theorem C07_throws_exactly_outside : forall (N : Num) r k, 0 <= r < 2 ^ 32 -> 0 <= k < 2 ^ 32 ->
  (binomial_coefficient r k = Throw ERunBinomial <-> ~ (k <= r <= 34)) /\
  (forall u, binomial_coefficient r k <> UB u).
Proof. exact C07_throw. Qed.
Print Assumptions C07_throws_exactly_outside.

(** the value, in exact arithmetic *)
Theorem C07_binomial_exact : forall r k, 0 <= r < 2 ^ 32 -> 0 <= k < 2 ^ 32 ->
  @binomial_coefficient XR r k =
  if (k <=? r) && (r <=? 34) then Ok (Fin (IZR (choose (Z.to_nat r) (Z.to_nat k)))) else Throw ERunBinomial.
Proof. exact C07_exact. Qed.
Print Assumptions C07_binomial_exact.

(** the value, in binary64 *)
Theorem C07_binomial_binary64_exact : forall lm r k, (k <= r <= 22)%nat ->
  exists x, @binomial_coefficient (F64 lm) (Z.of_nat r) (Z.of_nat k) = Ok x /\
    f64fin x = true /\ sfVal x = IZR (choose r k).
Proof. exact C07_b64_exact. Qed.
Print Assumptions C07_binomial_binary64_exact.

Theorem C07_binomial_binary64_close : forall lm r k, (k <= r <= 34)%nat ->
  exists x, @binomial_coefficient (F64 lm) (Z.of_nat r) (Z.of_nat k) = Ok x /\
    f64fin x = true /\ (Rabs (sfVal x - IZR (choose r k)) <= IZR (choose r k) / 2 ^ 52)%R.
Proof. exact C07_b64_close. Qed.
Print Assumptions C07_binomial_binary64_close.

(** exactness really fails from r = 23 on *)
Theorem C07_binomial_binary64_always_exact_refuted : forall lm, exists r k x, (k <= r <= 34)%nat /\
  @binomial_coefficient (F64 lm) (Z.of_nat r) (Z.of_nat k) = Ok x /\ sfVal x <> IZR (choose r k).
Proof. exact C07_b64_inexact. Qed.
Print Assumptions C07_binomial_binary64_always_exact_refuted.

Example C07_hyps : 0 <= 5 < 2 ^ 32 /\ 0 <= 2 < 2 ^ 32 /\ 2 <= 5 <= 34 /\ choose 5 2 = 10.
Proof. repeat split; discriminate. Qed.
