(** Binomial coefficients from a table: src/binomial.h *)
From Coq Require Import ZArith List Bool.
From Verif Require Import Num.
Import ListNotations.
Local Open Scope num_scope.

Section Binomial.
Context {N : Num}.

(** the table, binomial.h 25-61 (literals as written there) *)
Definition factorials : list num :=
  [nZ 1;
   nZ 1;
   nZ 2;
   nZ 6;
   nZ 24;
   nZ 120;
   nZ 720;
   nZ 5040;
   nZ 40320;
   nZ 362880;
   nZ 3628800;
   nZ 39916800;
   nZ 479001600;
   nZ 6227020800;
   nZ 87178291200;
   nZ 1307674368000;
   nZ 20922789888000;
   nZ 355687428096000;
   nZ 6402373705728000;
   nZ 121645100408832000;
   nlit 243290200817664 4;
   nlit 5109094217170944 4;
   nlit 112400072777760768 4;
   nlit 2585201673888497664 4;
   nlit 62044840173323943936 4;
   nlit 15511210043330985984 6;
   nlit 403291461126605635584 6;
   nlit 10888869450418352160768 6;
   nlit 304888344611713860501504 6;
   nlit 8841761993739701954543616 6;
   nlit 26525285981219105863630848 7;
   nlit 822283865417792281772556288 7;
   nlit 26313083693369353016721801216 7;
   nlit 868331761881188649551819440128 7;
   nlit 29523279903960414084761860964352 7].

(** [unsigned] subtraction wraps modulo 2^32 *)
Definition usub (a b : Z) : Z := Z.modulo (a - b) (2 ^ 32)%Z.

(** binomial_coefficient(unsigned r, unsigned k), binomial.h 24-67 *)
Definition binomial_coefficient (r k : Z) : res num :=
  if (r >=? 35)%Z || (k >=? 35)%Z || (usub r k >=? 35)%Z then Throw ERunBinomial
  else
    fr <- vgetZ factorials r ;;
    fk <- vgetZ factorials k ;;
    frk <- vgetZ factorials (usub r k) ;;
    Ok (fr / (fk * frk)).

End Binomial.
