(** Spec vocabulary for the Fortran module (C79). *)
From Coq Require Import ZArith List Bool String.
From Verif Require Import Fortran.
Import ListNotations.
Local Open Scope Z_scope.

Section SpecFortran.
Context {D : Type}.

(** the caller's argument has the type the wrapper declares; counts and indices
    are non-negative 32-bit integers *)
Definition typed (t : fty) (v : fval D) : Prop :=
  match t, v with
  | FPtr, FvPtr _ | FDouble, FvDouble _ | FChar, FvChar _ | FDoubles, FvDoubles _ => True
  | FInt, FvInt z => 0 <= z < 2 ^ 31
  | _, _ => False
  end.
Definition typedCall (w : wrapper) (st : store D) : Prop :=
  forall x t i, In (x, t, i) (w_dummies w) -> typed t (st x).

(** the C function's parameter [x] is the caller's argument of that name *)
Definition meant (st : store D) (x : string) : cval D :=
  match st x with
  | FvPtr p => CvPtr p
  | FvDouble d => CvDouble d
  | FvInt z => CvInt z
  | FvChar c => CvInt c
  | FvDoubles _ | FvUndef => CvArray x
  end.

(** what compilers do in practice *)
Definition usual (pl : platform) : Prop := keepsOut pl = true /\ upperHalf pl = 0.

(** the C function behind a name of the module *)
Definition behind (n : string) (f : cfun) : Prop :=
  c_name f = (n ++ "_C_interface")%string \/ c_name f = (n ++ "_interface")%string.

(** pointers the C function frees *)
Definition freed (f : cfun) (x : string) : Prop :=
  match c_body f with Delete xs => In x xs | _ => False end.

(** the dummy that receives what the C function makes *)
Definition output (w : wrapper) (x : string) : Prop := exists t, In (x, t, Out) (w_dummies w).

End SpecFortran.

(** the exported names whose call does not hand the C function its arguments *)
Definition garbled : list string :=
  ["tar_delete"; "getGasSpC"; "getGasSpP"; "get_pahSpC"; "get_pahSpP"; "setSootScales"; "get_yGas"; "get_yPAH"]%string.

(** the exported names whose call loses the C function's result *)
Definition lost : list string :=
  ["getGasSpC"; "getGasSpP"; "getGasMeanFreePath"; "get_pahSpC"; "get_pahSpP"; "get_T"; "get_rhoGas"; "get_yGas";
   "get_yPAH"; "get_SootVar"; "get_TarVar"]%string.

(** the other exported names that pass on a scalar [intent(out)] dummy *)
Definition outPassed : list string := ["setSourceTerms"; "getGasMeanFreePath"]%string.
