(** Specification vocabulary for configurations and names (C08, C09, C52). *)
From Coq Require Import ZArith List String Ascii Bool Arith.
From Verif Require Import Defs.
Import ListNotations.
Local Open Scope nat_scope.
Local Open Scope char_scope.
Local Open Scope nat_scope.

(** documented configurations of the particle-size models *)
Inductive documented : psdMech -> nat -> coagulationMech -> tarMech -> Prop :=
| doc_mono : forall c t, documented P_MONO 2 c t
| doc_logn : forall c, In c [C_FM; C_CONTINUUM; C_HM] -> documented P_LOGN 3 c T_NONE
| doc_qmom : forall k c, 1 <= k -> documented P_QMOM (2 * k) c T_NONE
| doc_momic : forall n c, 3 <= n <= 8 -> In c [C_FM; C_CONTINUUM; C_HM] -> documented P_MOMIC n c T_NONE
| doc_sect : forall n c, 2 <= n -> documented P_SECT n c T_NONE
| doc_hmom : forall n c, 4 <= n <= 9 -> In c [C_FM; C_CONTINUUM; C_HM] -> documented P_HMOM n c T_NONE.

(** the enumerators other than the counting ones *)
Definition realMechs (n : nucleationMech) (g : growthMech) (o : oxidationMech) (c : coagulationMech) (t : tarMech) : Prop :=
  n <> N_size /\ g <> G_size /\ o <> O_size /\ c <> C_size /\ t <> T_size.

(** reading a chemical formula made of C, H, O and one-digit counts *)
Definition digit (a : ascii) : option nat :=
  let n := nat_of_ascii a in if (48 <=? n) && (n <=? 57) then Some (n - 48) else None.
Fixpoint formula (s : string) : nat * nat * nat :=
  match s with
  | EmptyString => (0, 0, 0)
  | String a r =>
      let k := match r with String d _ => match digit d with Some v => v | None => 1 end | EmptyString => 1 end in
      let '(c, h, o) := formula r in
      if Ascii.eqb a "C" then (c + k, h, o)
      else if Ascii.eqb a "H" then (c, h + k, o)
      else if Ascii.eqb a "O" then (c, h, o + k)
      else (c, h, o)
  end.
