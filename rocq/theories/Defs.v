(** Constants, enumerations and species tables: src/sootDefs.h *)
From Coq Require Import ZArith List String.
From Verif Require Import Num.
Import ListNotations.
Local Open Scope num_scope.

(** ** Mechanism enumerations, sootDefs.h 32-37 (the [size] enumerator included:
    it is a value of the type and a caller can pass it) *)
Inductive nucleationMech := N_NONE | N_LL | N_LIN | N_LINA1 | N_PAH | N_MB | N_FAIR | N_AJ_RED | N_BROWN | N_size.
Inductive growthMech := G_NONE | G_LL | G_LIN | G_HACA | G_MB | G_FAIR | G_size.
Inductive oxidationMech := O_NONE | O_LL | O_LEE_NEOH | O_MB | O_FAIR | O_NSC_NEOH | O_HACA
                         | O_AJ_RED | O_BROWN | O_OPTJ | O_OPTG | O_size.
Inductive coagulationMech := C_NONE | C_FM | C_CONTINUUM | C_HM | C_FUCHS | C_size.
Inductive psdMech := P_NONE | P_MONO | P_LOGN | P_QMOM | P_MOMIC | P_SECT | P_HMOM | P_size.
Inductive tarMech := T_NONE | T_AJ_RED | T_BROWN | T_size.

Scheme Equality for nucleationMech.
Scheme Equality for growthMech.
Scheme Equality for oxidationMech.
Scheme Equality for coagulationMech.
Scheme Equality for psdMech.
Scheme Equality for tarMech.

(** ** Gas species, sootDefs.h 41: enumerators as vector positions *)
Inductive gasSp := O2 | O_ | H2 | H_ | OH | H2O | CO | C2H2 | C6H6 | C_ | CO2.
Definition gasIdx (s : gasSp) : nat :=
  match s with O2 => 0 | O_ => 1 | H2 => 2 | H_ => 3 | OH => 4 | H2O => 5
             | CO => 6 | C2H2 => 7 | C6H6 => 8 | C_ => 9 | CO2 => 10 end.
Definition gasSize : nat := 11.
Definition allGas : list gasSp := [O2; O_; H2; H_; OH; H2O; CO; C2H2; C6H6; C_; CO2].

(** PAH species, sootDefs.h 98 *)
Inductive pahSp := C10H8 | C12H8 | C12H10 | C14H10 | C16H10 | C18H10.
Definition pahIdx (s : pahSp) : nat :=
  match s with C10H8 => 0 | C12H8 => 1 | C12H10 => 2 | C14H10 => 3 | C16H10 => 4 | C18H10 => 5 end.
Definition pahSize : nat := 6.
Definition allPah : list pahSp := [C10H8; C12H8; C12H10; C14H10; C16H10; C18H10].

(** number of tar species, sootDefs.h 137 *)
Definition tarSpSize : nat := 4.

(** biomass components, sootDefs.h 149 *)
Inductive bioSp := cell | hw_hc | sw_hc | hw_lig | sw_lig.

(** ** Name maps, sootDefs.h 43-77 and 151-167 (std::map; a key that is
    absent is [None] here, where operator[] would insert a default value) *)
Local Open Scope string_scope.
Definition gasSpMapSE (s : string) : option gasSp :=
  if s =? "O2" then Some O2 else if s =? "O" then Some O_ else if s =? "H2" then Some H2
  else if s =? "H" then Some H_ else if s =? "OH" then Some OH else if s =? "H2O" then Some H2O
  else if s =? "CO" then Some CO else if s =? "C2H2" then Some C2H2 else if s =? "C6H6" then Some C6H6
  else if s =? "C" then Some C_ else if s =? "CO2" then Some CO2 else None.
Definition gasSpMapES (g : gasSp) : string :=
  match g with O2 => "O2" | O_ => "O" | H2 => "H2" | H_ => "H" | OH => "OH" | H2O => "H2O"
             | CO => "CO" | C2H2 => "C2H2" | C6H6 => "C6H6" | C_ => "C" | CO2 => "CO2" end.
Definition gasSpMapIS (i : nat) : option string :=
  nth_error ["O2"; "O"; "H2"; "H"; "OH"; "H2O"; "CO"; "C2H2"; "C6H6"; "C"; "CO2"] i.
Definition bioMapSE (s : string) : option bioSp :=
  if s =? "cell" then Some cell else if s =? "hw_hc" then Some hw_hc else if s =? "sw_hc" then Some sw_hc
  else if s =? "hw_lig" then Some hw_lig else if s =? "sw_lig" then Some sw_lig else None.
Definition bioMapES (b : bioSp) : string :=
  match b with cell => "cell" | hw_hc => "hw_hc" | sw_hc => "sw_sc" | hw_lig => "hw_lig" | sw_lig => "sw_lig" end.
Definition bioMapIS (i : nat) : option bioSp :=
  nth_error [cell; hw_hc; sw_hc; hw_lig; sw_lig] i.
Definition bioIdx (b : bioSp) : nat :=
  match b with cell => 0 | hw_hc => 1 | sw_hc => 2 | hw_lig => 3 | sw_lig => 4 end.
Local Close Scope string_scope.

Section Constants.
Context {N : Num}.

(** sootDefs.h 15-28.  [M_PI] is the decimal constant of <cmath>. *)
Definition Na   : num := nlit 602214076 18.          (** 6.02214076E26 *)
Definition kb   : num := nlit 1380649 (-29).         (** 1.380649E-23 *)
Definition Rg   : num := Na * kb.
Definition eps_c : num := nlit 22 (-1).              (** 2.2 *)
Definition rhoSoot : num := nZ 1850.
Definition bCoag : num := nlit 8536 (-4).            (** 0.8536 *)
Definition onethird : num := nZ 1 / nZ 3.
Definition twothird : num := nZ 2 / nZ 3.
Definition root2 : num := nsqrt (nZ 2).
Definition mmin : num := nlit 2 (-26).               (** 2E-26 *)
Definition M_PI : num := nlit 314159265358979323846 (-20).

(** gasSpMW, sootDefs.h 79-92 *)
Definition gasSpMW : list num :=
  [nlit 31998 (-3); nlit 15999 (-3); nlit 2016 (-3); nlit 1008 (-3); nlit 17007 (-3); nlit 18015 (-3);
   nlit 28010 (-3); nlit 26038 (-3); nlit 78114 (-3); nlit 12011 (-3); nlit 44009 (-3)].
(** constant-index reads of the constant table, always in bounds *)
Definition MWof (s : gasSp) : num := nth (gasIdx s) gasSpMW (nZ 0).

(** pahSpMW, pahSpNC, pahSpNH, pahSpGamma, sootDefs.h 100-133 *)
Definition pahMW (s : pahSp) : num :=
  match s with C10H8 => nlit 128174 (-3) | C12H8 => nlit 152196 (-3) | C12H10 => nlit 154212 (-3)
             | C14H10 => nlit 178234 (-3) | C16H10 => nlit 202256 (-3) | C18H10 => nlit 226278 (-3) end.
Definition pahNC (s : pahSp) : Z :=
  match s with C10H8 => 10 | C12H8 => 12 | C12H10 => 12 | C14H10 => 14 | C16H10 => 16 | C18H10 => 18 end%Z.
Definition pahNH (s : pahSp) : Z :=
  match s with C10H8 => 8 | C12H8 => 8 | C12H10 => 10 | C14H10 => 10 | C16H10 => 10 | C18H10 => 10 end%Z.
Definition pahGamma (s : pahSp) : num :=
  match s with C10H8 => nlit 133 (-5) | C12H8 => nlit 267 (-5) | C12H10 => nlit 85 (-4)
             | C14H10 => nlit 150 (-4) | C16H10 => nlit 250 (-4) | C18H10 => nlit 390 (-4) end.

(** struct sourceTerms, sootDefs.h 184-198 (tarGasSources is never written by
    the library after construction; kept for the size statement) *)
Record sourceTerms := mkSources {
  sootSources : list num;
  gasSources  : list num;
  pahSources  : list num;
  tarSources  : list num;
  tarGasSources : list num }.
Definition newSources (nsoot Ntar : nat) : sourceTerms :=
  mkSources (zeros nsoot) (zeros gasSize) (zeros pahSize) (zeros Ntar) (zeros tarSpSize).

End Constants.
