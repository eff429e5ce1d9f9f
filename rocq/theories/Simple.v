(** The small example programs: examples/simple_example.cc, simple_example_HMOM.cc and
    fortran_examples/simple_example_fort.f90.  The literals of the programs are parameters (in the
    Fortran program they are single-precision constants).  Not modelled: the text around the numbers
    printed and the deletion of the mechanisms at the end (see Objects.v). *)
From Coq Require Import ZArith List Bool.
From Verif Require Import Num Defs State Coag Nucl Growth Oxid Tar SootModel Qmom Calls CInterface.
Import ListNotations.
Local Open Scope num_scope.

Section Simple.
Context {N : Num}.

(** the soot model: simple_example.cc 13-25, simple_example_HMOM.cc 13-23, simple_example_fort.f90
    47-57; [f] is the multiplier 9.0/2.0/2.2.  A C++ model made without tar has Ntar = 0 and a
    tarModel_NONE (the default arguments, sootModel_MONO.h, sootModel_HMOM.h). *)
Definition simpleModel (p : psdMech) (n nt : nat) (f : num) : res model :=
  m <- constructPtr p n (newNucl N_LL) (newGrow G_LL) (newOxid O_LL) (newCoag C_FM) nt (newTar T_NONE) (nZ 2) 100 ;;
  Ok (with_coagObj m (set_FM_multiplier (sm_coag m) f)).

(** simple_example.cc 29-53 (simple_example_HMOM.cc 27-41): setState with the default Ntar_ = 0 and
    cMin_ = 100 of state.h, then setSourceTerms; an exception ends the program *)
Definition simpleRun (eig : eigSolver) (p : psdMech) (n : nat) (f T_ P_ rho mu : num) (yGas_ yPah_ Msoot : list num) : res model :=
  m <- simpleModel p n 0 f ;;
  match setState (newState n 0) T_ P_ rho mu yGas_ yPah_ Msoot (Z.of_nat n) [] 0 (nZ 100) with
  | SetOk s => ' (_, m, _) <- setSourceTerms None eig m s ;; Ok m
  | SetThrow e _ => Throw e
  | SetUB => UB OutOfBounds
  end.

(** the sources printed: 70-71 and 77-86 *)
Definition printedGas : list gasSp := [O2; O_; H2; H_; OH; H2O; CO; C2H2; C6H6; CO2].
Definition simpleCpp (eig : eigSolver) (f T_ P_ rho mu : num) (yGas_ yPah_ Msoot : list num) : res (list num * list num) :=
  m <- simpleRun eig P_MONO 2 f T_ P_ rho mu yGas_ yPah_ Msoot ;;
  q <- mapM (fun i => vget (sootSources (sm_sources m)) i) [0%nat; 1%nat] ;;
  g <- mapM (fun sp => vget (gasSources (sm_sources m)) (gasIdx sp)) printedGas ;;
  Ok (q, g).
(** simple_example_HMOM.cc 59-62 *)
Definition simpleHmom (eig : eigSolver) (f T_ P_ rho mu : num) (yGas_ yPah_ Msoot : list num) : res (list num) :=
  m <- simpleRun eig P_HMOM 4 f T_ P_ rho mu yGas_ yPah_ Msoot ;;
  mapM (fun i => vget (sootSources (sm_sources m)) i) [0%nat; 1%nat; 2%nat; 3%nat].

(** simple_example_fort.f90 59-62: the state is asked for the tar properties before it gets a temperature *)
Definition fortState (yBio_ : list num) : res state :=
  s <- getyBio_C (newState 2 1) yBio_ ;; get_mtar_ytar s.
(** simple_example_fort.f90 47-89 *)
Definition simpleFort (eig : eigSolver) (f T_ P_ rho mu : num) (yGas_ yPah_ yBio_ Msoot Mtar : list num) (cMin_ : num)
    : res (list num * list num) :=
  m <- simpleModel P_MONO 2 1 f ;;
  s <- fortState yBio_ ;;
  match setState_C s T_ P_ rho mu yGas_ yPah_ Msoot 2 Mtar 1 cMin_ with
  | SetOk s => ' (_, m, _) <- setSourceTerms None eig m s ;;
               g <- getGasSources_C (zeros gasSize) m ;;
               q <- getSootSources_C (zeros 2) m 2 ;;
               Ok (q, g)
  | SetThrow e _ => Throw e
  | SetUB => UB OutOfBounds
  end.

End Simple.
