(** Property C53: the linear interpolator of the burner-flame example. *)
From Coq Require Import ZArith List Reals Lra Lia.
From Coq.Floats Require Import SpecFloat.
From Verif Require Import Num Interp XR F64 SpecInterp InterpProofs.
Import ListNotations.
Local Open Scope R_scope.

(** which tables the constructor accepts *)
Theorem C53_constructor : forall X Y : list R,
  @newInterp XR (map Fin X) (map Fin Y) = Ok (mkInterpObj (map Fin X) (map Fin Y)) /\
    length X = length Y /\ ((length X <= 2)%nat \/ increasing X \/ decreasing X) \/
  @newInterp XR (map Fin X) (map Fin Y) = Throw EInterp /\
    ~ (length X = length Y /\ ((length X <= 2)%nat \/ increasing X \/ decreasing X)).
Proof. exact C53_ctor. Qed.
Print Assumptions C53_constructor.

(** increasing tables: every query is answered by the chord of a segment that fits it *)
Theorem C53_increasing_total : forall (X Y : list R) x, length X = length Y -> (2 <= length X)%nat -> increasing X ->
  exists i, segment X x i /\
    @interp XR (mkInterpObj (map Fin X) (map Fin Y)) (Fin x) = Ok (Fin (chord X Y i x)).
Proof. exact C53_inc. Qed.
Print Assumptions C53_increasing_total.

(** ... and any segment that fits may be used to predict it *)
Theorem C53_increasing_chord : forall (X Y : list R) x i, length X = length Y -> increasing X -> segment X x i ->
  @interp XR (mkInterpObj (map Fin X) (map Fin Y)) (Fin x) = Ok (Fin (chord X Y i x)).
Proof. exact C53_segment. Qed.
Print Assumptions C53_increasing_chord.

Theorem C53_nodes : forall (X Y : list R) j, length X = length Y -> (2 <= length X)%nat -> increasing X -> (j < length X)%nat ->
  @interp XR (mkInterpObj (map Fin X) (map Fin Y)) (Fin (nth j X 0)) = Ok (Fin (nth j Y 0)).
Proof. exact C53_node_. Qed.
Print Assumptions C53_nodes.

(** decreasing tables: only the first and the last segment are ever used *)
Theorem C53_decreasing : forall (X Y : list R) x, length X = length Y -> (2 <= length X)%nat -> decreasing X ->
  @interp XR (mkInterpObj (map Fin X) (map Fin Y)) (Fin x) =
  Ok (Fin (chord X Y (if Rle_dec x (nth 0 X 0) then 0 else length X - 2) x)).
Proof. exact C53_dec. Qed.
Print Assumptions C53_decreasing.

(** so a decreasing table, which the constructor accepts, does not reproduce its own nodes *)
Theorem C53_decreasing_nodes_refuted : exists (X Y : list R) j y,
  @newInterp XR (map Fin X) (map Fin Y) = Ok (mkInterpObj (map Fin X) (map Fin Y)) /\ decreasing X /\ (j < length X)%nat /\
  @interp XR (mkInterpObj (map Fin X) (map Fin Y)) (Fin (nth j X 0)) = Ok (Fin y) /\ y <> nth j Y 0.
Proof. exact C53_dec_bad. Qed.
Print Assumptions C53_decreasing_nodes_refuted.

(** tables with fewer than two points are accepted, and every query is out of bounds *)
Theorem C53_short_tables_refuted : forall (X Y : list R) x, length X = length Y -> (length X <= 1)%nat ->
  @newInterp XR (map Fin X) (map Fin Y) = Ok (mkInterpObj (map Fin X) (map Fin Y)) /\
  @interp XR (mkInterpObj (map Fin X) (map Fin Y)) (Fin x) = UB OutOfBounds.
Proof. exact C53_short_. Qed.
Print Assumptions C53_short_tables_refuted.

(** a NaN query is out of bounds for every table, in binary64 *)
Theorem C53_nan_query_refuted : forall lm (X Y : list spec_float),
  @interp (F64 lm) (mkInterpObj (N:=F64 lm) X Y) S754_nan = UB OutOfBounds.
Proof. exact C53_nan64. Qed.
Print Assumptions C53_nan_query_refuted.

Example C53_hyps : increasing [1; 2; 4] /\ segment [1; 2; 4] 3 1 /\ decreasing [4; 2; 1].
Proof. exact C53_case. Qed.
