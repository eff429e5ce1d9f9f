(** The soot model object, its constructors and the code shared by all
    setSourceTerms functions: src/sootModel.h, src/sootModel.cc *)
From Coq Require Import ZArith List Bool.
From Verif Require Import Num Defs State Coag Nucl Growth Oxid Tar.
Import ListNotations.
Local Open Scope num_scope.

Section SootModel.
Context {N : Num}.

(** private members of sootModel_MOMIC (MOMIC.h 20-34) and sootModel_HMOM (HMOM.h
    20-34).  Of the difference table only row 0 is kept: no other row is
    read after set_diffTable.  The powers of one mass (mDimer for MOMIC, the
    nucleated mass for HMOM) are represented by that mass; [None] = never set. *)
Record interpData := mkInterp {
  id_Nmom : nat;
  id_diff0 : list num;
  id_Mp6 : list num;
  id_Mq6 : list num;
  id_mass : option num }.

(** private data of the derived classes *)
Inductive privData :=
| PrivNone                                    (** MONO, LOGN, QMOM *)
| PrivSect (binGrowthFactor : num) (beta_DSi : list num)
| PrivMomic (d : interpData)
| PrivHmom (d : interpData).

(** class sootModel, sootModel.h 30-46, with the mechanism objects it points to *)
Record model := mkModel {
  sm_psd : psdMech;
  sm_nsoot : nat; sm_Ntar : nat;
  sm_nucl : nuclObj; sm_grow : growObj; sm_oxid : oxidObj; sm_coag : coagObj; sm_tar : tarObj;
  sm_newed : bool;
  sm_mBins : list num;
  sm_sources : sourceTerms;
  sm_priv : privData }.

Definition with_sources (m : model) x := mkModel (sm_psd m) (sm_nsoot m) (sm_Ntar m) (sm_nucl m) (sm_grow m) (sm_oxid m) (sm_coag m) (sm_tar m) (sm_newed m) (sm_mBins m) x (sm_priv m).
Definition with_priv (m : model) x := mkModel (sm_psd m) (sm_nsoot m) (sm_Ntar m) (sm_nucl m) (sm_grow m) (sm_oxid m) (sm_coag m) (sm_tar m) (sm_newed m) (sm_mBins m) (sm_sources m) x.
Definition with_nuclObj (m : model) x := mkModel (sm_psd m) (sm_nsoot m) (sm_Ntar m) x (sm_grow m) (sm_oxid m) (sm_coag m) (sm_tar m) (sm_newed m) (sm_mBins m) (sm_sources m) (sm_priv m).
Definition with_coagObj (m : model) x := mkModel (sm_psd m) (sm_nsoot m) (sm_Ntar m) (sm_nucl m) (sm_grow m) (sm_oxid m) x (sm_tar m) (sm_newed m) (sm_mBins m) (sm_sources m) (sm_priv m).

(** ** Constructors *)

(** the switch statements of the enumerator constructor, sootModel.cc 104-164 *)
Definition mkNuclEnum (e : nucleationMech) : res nuclObj :=
  match e with N_size => Throw EDomNucl | _ => Ok (newNucl e) end.
Definition mkGrowEnum (e : growthMech) : res growObj :=
  match e with G_size => Throw EDomGrow | _ => Ok (newGrow e) end.
Definition mkOxidEnum (e : oxidationMech) : res oxidObj :=
  match e with O_size => Throw EDomOxid | _ => Ok (newOxid e) end.
Definition mkCoagEnum (e : coagulationMech) : res coagObj :=
  match e with C_size => Throw EDomCoag | _ => Ok (newCoag e) end.
Definition mkTarEnum (e : tarMech) : res tarObj :=
  match e with T_size => Throw EDomTarMech | _ => Ok (newTar e) end.

Definition needNoTar (t : tarMech) : res unit :=
  match t with T_NONE => Ok tt | _ => Throw ERunTar end.
Definition needFmContHm (c : coagulationMech) : res unit :=
  match c with C_FM | C_CONTINUUM | C_HM => Ok tt | _ => Throw ERunCoag end.

(** the checks in the bodies of the derived constructors, in source order:
    MONO.cc 29-30, LOGN.cc 31-41, QMOM.cc 34-38, MOMIC.cc 32-41, SECT.cc 32-36,
    HMOM.cc 34-43 (each repeated in the enumerator constructor).  The enumerators
    P_NONE and P_size name no class; they are mapped to the nsoot error. *)
Definition derivedCheck (p : psdMech) (nsoot : nat) (c : coagulationMech) (t : tarMech) : res unit :=
  match p with
  | P_MONO => if Nat.eqb nsoot 2 then Ok tt else Throw ERunNsoot
  | P_LOGN => if negb (Nat.eqb nsoot 3) then Throw ERunNsoot else _ <- needNoTar t ;; needFmContHm c
  | P_QMOM => if Nat.eqb (Nat.modulo nsoot 2) 1 || Nat.ltb nsoot 1 then Throw ERunNsoot else needNoTar t
  | P_MOMIC => if Nat.ltb nsoot 3 || Nat.ltb 8 nsoot then Throw ERunNsoot
               else _ <- needNoTar t ;; needFmContHm c
  | P_SECT => if Nat.ltb nsoot 2 then Throw ERunNsoot else needNoTar t
  | P_HMOM => if Nat.ltb nsoot 4 || Nat.ltb 9 nsoot then Throw ERunNsoot
              else _ <- needNoTar t ;; needFmContHm c
  | P_NONE | P_size => Throw ERunNsoot
  end.

(** set_mBins, sootModel_SECT.cc 96-101; [cMin_] is an [int] *)
Definition set_mBins (nsoot : nat) (F : num) (cMin_ : Z) : list num :=
  map (fun k => nZ cMin_ * npow F (nn k) * MWof C_ / Na) (seq 0 nsoot).

(** members initialised by the derived constructors: SECT.cc 38-43,
    MOMIC.cc 44-55, HMOM.cc 45-56 *)
Definition initPriv (p : psdMech) (nsoot : nat) (nm : nucleationMech) (F : num) : privData :=
  match p with
  | P_SECT => PrivSect F (match nm with N_PAH => zeros nsoot | _ => [] end)
  | P_MOMIC => PrivMomic (mkInterp nsoot (zeros nsoot) (zeros 22) (zeros 30) None)
  | P_HMOM => PrivHmom (mkInterp (nsoot - 1) (zeros (nsoot - 1)) (zeros 25) (zeros 33) None)
  | _ => PrivNone
  end.
Definition initBins (p : psdMech) (nsoot : nat) (F : num) (cMin_ : Z) : list num :=
  match p with P_SECT => set_mBins nsoot F cMin_ | _ => [] end.

(** common tail of both constructors; [checkSpec] (sootModel.cc 188-197) only prints *)
Definition build (newed : bool) (p : psdMech) (nsoot : nat) (nu : nuclObj) (gr : growObj) (ox : oxidObj)
    (co : coagObj) (Ntar : nat) (ta : tarObj) (F : num) (cMin_ : Z) : res model :=
  _ <- derivedCheck p nsoot (co_mech co) (ta_mech ta) ;;
  Ok (mkModel p nsoot Ntar nu gr ox co ta newed (initBins p nsoot F cMin_) (newSources nsoot Ntar)
              (initPriv p nsoot (nu_mech nu) F)).

(** pointer constructor, sootModel.cc 60-74 and the derived ones; [F] and
    [cMin_] are arguments of the sectional constructor only *)
Definition constructPtr := build false.

(** enumerator constructor, sootModel.cc 90-180 and the derived ones *)
Definition constructEnum (p : psdMech) (nsoot : nat) (n : nucleationMech) (g : growthMech) (o : oxidationMech)
    (c : coagulationMech) (Ntar : nat) (t : tarMech) (F : num) (cMin_ : Z) : res model :=
  nu <- mkNuclEnum n ;; gr <- mkGrowEnum g ;; ox <- mkOxidEnum o ;;
  co <- mkCoagEnum c ;; ta <- mkTarEnum t ;;
  build true p nsoot nu gr ox co Ntar ta F cMin_.

(** ** Shared parts of the setSourceTerms functions *)

(** what the mechanisms see of this model through [SM] (own mechanisms) *)
Definition viewOf (m : model) : smView := mkView (sm_psd m) (sm_nsoot m) (sm_mBins m).

(** result of a nucleation call stored back: the mechanism object and the
    members written by pahSootCollisionRatePerDimer *)
Definition storeNucl (m : model) (nu : nuclObj) (eff : option (list num)) : model :=
  let m := with_nuclObj m nu in
  match sm_priv m, eff with
  | PrivSect F _, Some b => with_priv m (PrivSect F b)
  | PrivMomic d, Some [x] =>
      with_priv m (PrivMomic (mkInterp (id_Nmom d) (id_diff0 d) (id_Mp6 d) (id_Mq6 d) (Some x)))
  | _, _ => m
  end.

(** [nucl->getNucleationSootRate(state)] *)
Definition runNucl (coll : state -> num -> res (num * list num)) (m : model) (s : state)
    : res (num * model * state) :=
  ' (j, nu, s', eff) <- nuclRate coll (sm_nucl m) s ;;
  Ok (j, storeNucl m nu eff, s').

(** "get chemical rates": the three calls in the order used by MONO, QMOM, MOMIC, SECT, HMOM *)
Definition chemRates (coll : state -> num -> res (num * list num)) (m : model) (s : state)
    : res (num * num * num * model * state) :=
  ' (jNuc, m, s) <- runNucl coll m s ;;
  kGrw <- growRate (sm_grow m) (viewOf m) s ;;
  kOxi <- oxidRate (sm_oxid m) (viewOf m) s ;;
  Ok (jNuc, kGrw, kOxi, m, s).

Definition isPAH (m : model) : bool := match nu_mech (sm_nucl m) with N_PAH => true | _ => false end.
Definition nuclOn (m : model) : bool := match nu_mech (sm_nucl m) with N_NONE => false | _ => true end.
Definition growOn (m : model) : bool := match gr_mech (sm_grow m) with G_NONE => false | _ => true end.
Definition oxidOn (m : model) : bool := match ox_mech (sm_oxid m) with O_NONE => false | _ => true end.
Definition coagOn (m : model) : bool := match co_mech (sm_coag m) with C_NONE => false | _ => true end.

(** mass of one nucleated particle: [state.cMin*gasSpMW[C]/Na] *)
Definition mNucOf (s : state) : num := cMin s * MWof C_ / Na.

(** "set gas source terms": the block at the end of every setSourceTerms
    (for example MONO.cc 266-275).  All four vectors have 11 entries. *)
Definition gasSrc (m : model) (N1 G1 X1 : num) : list num :=
  let a := getNucleationGasRates (sm_nucl m) N1 (zeros gasSize) in
  let b := getGrowthGasRates (sm_grow m) G1 (zeros gasSize) in
  let c := getOxidationGasRates (sm_oxid m) X1 (zeros gasSize) in
  map (fun i => nth i a (nZ 0) + nth i b (nZ 0) + nth i c (nZ 0)) (seq 0 gasSize).

(** store all soot sources (each setSourceTerms writes every entry), the gas
    sources, and the PAH sources if the mechanism is PAH *)
Definition finish (m : model) (soot : list num) (N1 G1 X1 : num) : model :=
  let old := sm_sources m in
  with_sources m
    (mkSources soot (gasSrc m N1 G1 X1)
       (if isPAH m then nu_pah (sm_nucl m) else pahSources old)
       (tarSources old) (tarGasSources old)).

(** [for r : v[r] = v1[r] + ... + v5[r]] over vectors given as functions of the index *)
Definition combine5 (n : nat) (a b c d e : nat -> num) : list num :=
  map (fun k => a k + b k + c k + d k + e k) (seq 0 n).

End SootModel.
