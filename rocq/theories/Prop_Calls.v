(** Property C80: a program that uses the C interface.  All theorems hold for every number
    type (binary64 included) unless stated otherwise. *)
From Coq Require Import ZArith List.
From Verif Require Import Num Defs State Coag Nucl Growth Oxid Tar SootModel Calls CInterface F64 SpecSafe SpecState SpecCalls NumLaws CallsProofs.
Import ListNotations.

(** Any history of setState and setSourceTerms calls through the C interface ends as the C++
    history with ten gases and cMin 100 does, and the three buffer routines then hand out all the
    sources; a refused setState ends the program. *)
Theorem C80_program : forall (N : Num) n nt p nu gr ox (co : coagObj) ta F k (m : model (N:=N)) l g,
  build false p n (newNucl nu) (newGrow gr) (newOxid ox) co nt (newTar ta) F k = Ok m ->
  p <> P_HMOM -> (p = P_MOMIC -> n <= 7) -> (readsTar nu ta -> 1 <= nt) -> ta <> T_AJ_RED -> Forall (longEnough n nt) l ->
  match runC (g, m, newState n nt) l with
  | Ok (g', m', s') =>
      runActions (g, m, newState n nt) (map (sameInCpp n nt) l) = Ok (g', m', s') /\
      (forall buf, n <= length buf -> getSootSources_C buf m' (Z.of_nat n) = Ok (overwritten buf (sootSources (sm_sources m')))) /\
      (forall buf, 11 <= length buf -> getGasSources_C buf m' = Ok (overwritten buf (gasSources (sm_sources m')))) /\
      (forall buf, nt <= length buf -> getTarSources_C buf m' (Z.of_nat nt) = Ok (overwritten buf (tarSources (sm_sources m'))))
  | Throw e =>
      p = P_QMOM /\ 34 < n /\ co_mech co <> C_NONE \/
      exists l1 a l2 g' m' s', l = l1 ++ a :: l2 /\ runC (g, m, newState n nt) l1 = Ok (g', m', s') /\ refused n nt s' a e
  | UB u => u = BadCast /\ p = P_SECT /\ co_mech co <> C_NONE
  end.
Proof. exact @C80_program_. Qed.
Print Assumptions C80_program.

Example C80_case : forall lm, exists m : model (N:=F64 lm),
  build false P_MONO 2 (newNucl N_LL) (newGrow G_LL) (newOxid O_LL) (newCoag C_FM) 0 (newTar T_NONE) (nZ 2) 100 = Ok m /\
  ~ readsTar N_LL T_NONE /\
  Forall (longEnough 2 0) [CSet (N:=F64 lm) (nZ 1500) (nZ 100000) (nZ 1) (nZ 1) (repeat (nZ 0) 11) (repeat (nZ 0) 6) [nZ 1; nZ 1] 2 [] 0 (nZ 50);
                           CSrc (fun _ _ _ => (fun _ => nZ 0, fun _ => nZ 0))].
Proof.
  intros lm. eexists. split; [reflexivity|]. split; [intros [H|[H|H]]; try discriminate; now apply H|].
  repeat constructor.
Qed.

(** What the buffer routines write, whatever the model: they return exactly if the count exceeds
    neither the sources nor the buffer, and change only that many entries. *)
Theorem C80_buffer : forall (N : Num) (m : model (N:=N)) (buf out : list num) n, (0 <= n)%Z ->
  (getSootSources_C buf m n = Ok out <-> (n <= Z.of_nat (length (sootSources (sm_sources m))))%Z /\ (n <= Z.of_nat (length buf))%Z /\
     out = firstn (Z.to_nat n) (sootSources (sm_sources m)) ++ skipn (Z.to_nat n) buf) /\
  (getTarSources_C buf m n = Ok out <-> (n <= Z.of_nat (length (tarSources (sm_sources m))))%Z /\ (n <= Z.of_nat (length buf))%Z /\
     out = firstn (Z.to_nat n) (tarSources (sm_sources m)) ++ skipn (Z.to_nat n) buf).
Proof. exact @C80_buffer_. Qed.
Print Assumptions C80_buffer.
(** A gas buffer of fewer than 11 entries, such as the ten setState reads, is overrun. *)
Theorem C80_gas_buffer_refuted : forall (N : Num) (m : model (N:=N)) (buf : list num),
  length buf < 11 -> getGasSources_C buf m = UB OutOfBounds.
Proof. exact @C80_short_. Qed.
Print Assumptions C80_gas_buffer_refuted.

(** What the getters of a state return after an accepted setState. *)
Theorem C80_state : forall (N : Num), cmpLaws N -> forall (s s' : state) n nt t p rho mu yg yp sv ns tv nT cm,
  longEnough n nt (CSet t p rho mu yg yp sv ns tv nT cm) ->
  setState_C s t p rho mu yg yp sv ns tv nT cm = SetOk s' ->
  (forall sp, exists y, nth_error yp (pahIdx sp) = Some y /\ get_yPAH_C s' sp = Ok y) /\
  (forall i x, i < n -> nth_error sv i = Some x -> nltb x (nZ 0) = false -> get_SootVar_C s' (Z.of_nat i) = Ok x) /\
  (forall i x, i < nt -> nth_error tv i = Some x -> nltb x (nZ 0) = false -> get_TarVar_C s' (Z.of_nat i) = Ok x) /\
  (forall i, (i < 0 \/ Z.of_nat n <= i)%Z -> get_SootVar_C s' i = UB OutOfBounds) /\
  (forall i, (i < 0 \/ Z.of_nat nt <= i)%Z -> get_TarVar_C s' i = UB OutOfBounds).
Proof. exact @C80_state_. Qed.
Print Assumptions C80_state.
Theorem C80_bio : forall (N : Num) (s s' : state (N:=N)) (y : list num), getyBio_C s y = Ok s' ->
  5 <= length y /\ yBio s' = firstn 5 y /\ s = with_yBio s' (yBio s).
Proof. exact @C80_bio_. Qed.
Print Assumptions C80_bio.
