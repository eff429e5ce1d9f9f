(** The burner-flame drivers: examples/burner_flame/burner_flame.cc, burner_flame_MOMIC.cc,
    burner_flame_HMOM.cc (the same program but for the class of the soot model, nsoot and the name
    of the output file) and burner_flame_tar.cc.  Line numbers are those of burner_flame.cc unless
    stated otherwise.  Not modelled: reading burner_profiles.inp (30-51; the columns are given) and
    the text written to the output file, of which the numbers are kept. *)
From Coq Require Import ZArith List Bool.
From Verif Require Import Num Defs State Coag Nucl Growth Oxid Tar SootModel Qmom Calls Interp.
Import ListNotations.
Local Open Scope num_scope.

Section Flame.
Context {N : Num}.

(** the columns of the input file, 16-28 *)
Record columns := mkColumns {
  c_z : list num; c_v : list num; c_T : list num; c_rho : list num; c_mu : list num;
  c_O2 : list num; c_O : list num; c_H2 : list num; c_H : list num; c_OH : list num;
  c_H2O : list num; c_CO : list num; c_C2H2 : list num }.

(** the interpolators, 53-64 *)
Record tables := mkTables {
  t_v : interpObj; t_T : interpObj; t_rho : interpObj; t_mu : interpObj;
  t_O2 : interpObj; t_O : interpObj; t_H2 : interpObj; t_H : interpObj; t_OH : interpObj;
  t_H2O : interpObj; t_CO : interpObj; t_C2H2 : interpObj }.
Definition makeTables (c : columns) : res tables :=
  let z := c_z c in
  v <- newInterp z (c_v c) ;; t <- newInterp z (c_T c) ;; rho <- newInterp z (c_rho c) ;; mu <- newInterp z (c_mu c) ;;
  o2 <- newInterp z (c_O2 c) ;; o <- newInterp z (c_O c) ;; h2 <- newInterp z (c_H2 c) ;; h <- newInterp z (c_H c) ;;
  oh <- newInterp z (c_OH c) ;; h2o <- newInterp z (c_H2O c) ;; co <- newInterp z (c_CO c) ;; c2h2 <- newInterp z (c_C2H2 c) ;;
  Ok (mkTables v t rho mu o2 o h2 h oh h2o co c2h2).

(** the two initialiser lists for yGas: at the beginning of a step, 119, and in the middle, 129 *)
Definition gasFull (t : tables) : list interpObj := [t_O2 t; t_O t; t_H2 t; t_H t; t_OH t; t_H2O t; t_CO t; t_C2H2 t].
Definition gasHalf (t : tables) : list interpObj := [t_H t; t_H2 t; t_O t; t_O2 t; t_OH t; t_H2O t; t_CO t; t_C2H2 t].

(** M[i] = Mhat[i]*LI_rho(z), 120-121, 130-131 and the output 113, 141 *)
Definition scaled (t : tables) (n : nat) (z : num) (Mhat : list num) : res (list num) :=
  mapM (fun i => x <- vget Mhat i ;; r <- interp (t_rho t) z ;; Ok (x * r)) (seq 0 n).

(** 119-123 and 129-133: setState, whose exception nobody catches, and setSourceTerms *)
Definition evaluate (eig : eigSolver) (t : tables) (n : nat) (gas : list interpObj) (z : num) (c : option num * model * state) (Mhat : list num)
    : res (option num * model * state) :=
  let '(g, m, s) := c in
  yg <- mapM (fun o => interp o z) gas ;;
  M <- scaled t n z Mhat ;;
  T_ <- interp (t_T t) z ;; rho <- interp (t_rho t) z ;; mu <- interp (t_mu t) z ;;
  match setState s T_ (nZ 101325) rho mu yg (zeros pahSize) M (Z.of_nat n) [] 0 (nZ 1667) with
  | SetOk s1 => setSourceTerms g eig m s1
  | SetThrow e _ => Throw e
  | SetUB => UB OutOfBounds
  end.

(** Mhat[k] + h*sources.sootSources[k]/LI_rho(z)/LI_v(z), 125-126 and 135-136 *)
Definition advance (t : tables) (n : nat) (z h : num) (m : model) (Mhat : list num) : res (list num) :=
  mapM (fun k => x <- vget Mhat k ;; y <- vget (sootSources (sm_sources m)) k ;;
                 r <- interp (t_rho t) z ;; v <- interp (t_v t) z ;; Ok (x + h * y / r / v)) (seq 0 n).

(** what a step hands to the next: the objects, z, Mhat and the rows of the output file *)
Record loopState := mkLoop {
  pr_obj : option num * model * state; pr_z : num; pr_M : list num; pr_out : list (num * list num) }.

(** body of the loop, 117-144 *)
Definition flameStep (eig : eigSolver) (t : tables) (n : nat) (dz : num) (a : loopState) (istep : nat) : res loopState :=
  let z := pr_z a in
  c1 <- evaluate eig t n (gasFull t) z (pr_obj a) (pr_M a) ;;
  Mhath <- advance t n z (nlit 5 (-1) * dz) (snd (fst c1)) (pr_M a) ;;
  let zh := z + dz / nZ 2 in
  c2 <- evaluate eig t n (gasHalf t) zh c1 Mhath ;;
  Mhat <- advance t n zh dz (snd (fst c2)) (pr_M a) ;;
  out <- (if Nat.eqb (Nat.modulo istep 200) 0
          then M <- scaled t n (z + dz) Mhat ;; Ok (pr_out a ++ [(z + dz, M)]) else Ok (pr_out a)) ;;
  Ok (mkLoop c2 (z + dz) Mhat out).

(** the soot model of the drivers, 68-82: the class and nsoot differ *)
Definition flameModel (p : psdMech) (n : nat) : res model :=
  m <- constructPtr p n (newNucl N_LL) (newGrow G_LL) (newOxid O_LL) (newCoag C_HM) 0 (newTar T_NONE) (nZ 2) 100 ;;
  Ok (with_coagObj m (set_FM_multiplier (sm_coag m) (nZ 9 / nZ 2 / nlit 22 (-1)))).

(** main, 53-144.  [nsteps] is 20000 in the source. *)
Definition flame (eig : eigSolver) (p : psdMech) (n nsteps : nat) (c : columns) : res loopState :=
  t <- makeTables c ;;
  m <- flameModel p n ;;
  zstart <- vget (c_z c) 0 ;; zend <- vget (c_z c) (length (c_z c) - 1) ;;
  let dz := (zend - zstart) / nn nsteps in
  M <- scaled t n zstart (zeros n) ;;
  foldM (flameStep eig t n dz) (seq 0 nsteps) (mkLoop (None, m, newState n 0) zstart (zeros n) [(zstart, M)]).

(** ** burner_flame_tar.cc: the first evaluation, 57-68, 72-113, 133-139 *)
Definition tarModel : res model :=
  m <- constructPtr P_MONO 2 (newNucl N_AJ_RED) (newGrow G_HACA) (newOxid O_AJ_RED) (newCoag C_FM) 1 (newTar T_AJ_RED) (nZ 2) 100 ;;
  Ok (with_coagObj m (set_FM_multiplier (sm_coag m) (nZ 9 / nZ 2 / nlit 22 (-1)))).
Definition bioInputs : list num := [nlit 46 (-2); nlit 16 (-2); nlit 16 (-2); nlit 11 (-2); nlit 11 (-2)].
Definition tarFlameStart (eig : eigSolver) (c : columns) : res (option num * model * state) :=
  t <- makeTables c ;;
  m <- tarModel ;;
  z <- vget (c_z c) 0 ;;
  let s := with_yBio (newState 2 1) bioInputs in
  yg <- mapM (fun o => interp o z) (gasFull t) ;;
  M <- scaled t 2 z (zeros 2) ;; TV <- scaled t 1 z (zeros 1) ;;
  T_ <- interp (t_T t) z ;; rho <- interp (t_rho t) z ;; mu <- interp (t_mu t) z ;;
  match setState s T_ (nZ 101325) rho mu yg (zeros pahSize) M 2 TV 1 (nZ 100) with
  | SetOk s1 => s2 <- get_mtar_ytar s1 ;; setSourceTerms None eig m s2
  | SetThrow e _ => Throw e
  | SetUB => UB OutOfBounds
  end.

End Flame.
