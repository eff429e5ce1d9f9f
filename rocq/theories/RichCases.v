(** Hydroxyl and HACA growth; examples. *)
From Coq Require Import ZArith List Bool Reals Lra Lia.
From Verif Require Import Num Defs State Coag Nucl Growth Oxid Tar SootModel Mono Qmom Momic Calls XR XRLemmas NumLaws SpecConfig SpecChem SpecCoag SpecValid SpecRates SpecGas SpecPah SpecPsd SpecSect SpecFinite SpecScale SpecSigns SpecRich
  ConfigProofs CoagProofs StateXR ValidProofs RateProofs PsdProofs PahProofs MonoProofs MonoMain MonoCases StateProofs FiniteMain SignsProofs RichProofs RichMain.
Import ListNotations.
Local Open Scope R_scope.

(** acetylene, with a fraction [y] of OH *)
Definition wet (y : R) : gas := mkGas 1800 101325 (1 / 5) (1 / 20000) 100 (fun sp => match sp with C2H2 => 1 / 10 | OH => y | _ => 0 end) (fun _ => 0).
Lemma wet_physical y : 0 <= y <= 1 -> physical (wet y).
Proof.
  intros H. split; [|split].
  - repeat split; cbn [gT gP gRho gMu gCMin gY gPah wet]; try lra; intros sp; destruct sp; lra.
  - intros sp. cbn [gY wet]. destruct sp; lra.
  - unfold pahVec, allPah. cbn [map fold_left gPah wet]. lra.
Qed.
Lemma wet_richer y : 0 <= y -> richer OH (wet 0) (wet y).
Proof. intros H. repeat split; cbn [gY wet]; auto. intros x Hx. destruct x; congruence. Qed.
Lemma conc0 y sp : sp <> C2H2 -> sp <> OH -> conc (wet y) sp = 0.
Proof. intros A B. unfold conc. cbn [gY gRho wet]. destruct sp; try congruence; unfold Rdiv; ring. Qed.
Lemma conc_pos' y sp : 0 < gY (wet y) sp -> 0 < conc (wet y) sp.
Proof. intros H. unfold conc. apply Rdiv_lt_0_compat; [|apply mm_pos]. apply Rmult_lt_0_compat; [cbn [gRho wet]; lra|exact H]. Qed.
Lemma pre_pos a n e t : 0 < a -> 0 < a * Rpower t n * exp e.
Proof. intros. apply Rmult_lt_0_compat; [|apply exp_pos]. apply Rmult_lt_0_compat; [assumption|]. unfold Rpower. apply exp_pos. Qed.
Lemma grow_dry : growFormula G_HACA (wet 0) 1 1 = 0.
Proof.
  cbn [growFormula]. assert (U : hacaUp (wet 0) = 0).
  { unfold hacaUp. rewrite (conc0 0 H_) by discriminate. assert (E : conc (wet 0) OH = 0) by (unfold conc; cbn [gY wet]; unfold Rdiv; ring). rewrite E. unfold Rdiv. ring. }
  unfold hacaMass, hacaRadicals. rewrite U. destruct (Req_EM_T (hacaDown (wet 0)) 0); unfold Rdiv; ring.
Qed.
Lemma grow_wet : 0 < growFormula G_HACA (wet (1 / 10)) 1 1.
Proof.
  cbn [growFormula]. set (g := wet (1 / 10)). assert (C0 : forall sp, sp <> C2H2 -> sp <> OH -> conc g sp = 0) by (intros; now apply conc0).
  assert (Q4 : 0 < haca4 g). { unfold haca4. apply Rmult_lt_0_compat; [apply pre_pos; lra|]. assert (0 < conc g C2H2) by (apply conc_pos'; cbn [gY wet]; lra). lra. }
  assert (U : 0 < hacaUp g).
  { unfold hacaUp. rewrite (C0 H_) by discriminate. assert (H : 0 < conc g OH) by (apply conc_pos'; cbn [gY wet]; lra).
    match goal with |- 0 < ?a * (0 / 1000) + ?b * ?c => assert (0 < b) by (apply pre_pos; lra); assert (0 < b * c) by (apply Rmult_lt_0_compat; lra); replace (a * (0 / 1000)) with 0 by (unfold Rdiv; ring) end. lra. }
  assert (D : hacaDown g = haca4 g). { unfold hacaDown, haca5. rewrite !C0 by discriminate. unfold Rdiv. ring. }
  assert (A : activeSites g 1 1 = 1). { unfold activeSites. destruct (Rlt_dec 0 1); [|lra]. destruct (Req_EM_T 1 1); [reflexivity|congruence]. }
  rewrite A. unfold hacaRadicals. rewrite D. destruct (Req_EM_T (haca4 g) 0); [lra|]. pose proof massC_pos. pose proof avo_pos.
  unfold hacaMass. replace (haca4 g * (hacaUp g / haca4 g * (2 * (23 * 10 ^ 14))) * 1) with (hacaUp g * (2 * (23 * 10 ^ 14))) by (field; lra).
  apply Rmult_lt_0_compat; [apply Rdiv_lt_0_compat; lra|lra].
Qed.

(** one call of the monodisperse model with HACA growth alone *)
Lemma haca_call y (m : model (N:=XR)) eig : 0 <= y <= 1 -> constructEnum P_MONO 2 N_NONE G_HACA O_NONE C_NONE 0 T_NONE (Fin 2) 100 = Ok m ->
  exists st m' s', runActions (None, m, newState 2 0) [setTo (wet y) [1; 1] []; ASrc eig] = Ok (st, m', s') /\
    sourcesAre 2 m' (fun j => match j with O => 0 | _ => growFormula G_HACA (wet y) 1 1 * sphere 1 end).
Proof.
  intros Hy E. set (k := mkMechs N_NONE G_HACA O_NONE C_NONE 1).
  assert (GC : goodConfig P_MONO 2 N_NONE C_NONE T_NONE 2 100) by (split; [left; repeat split; discriminate|split; [reflexivity|exact I]]).
  destruct (start _ _ _ _ _ _ _ _ _ _ _ GC E) as (CO & OM & HT & IV). fold k in OM, IV.
  destruct IV as (HM & HP & PF & S1 & S2 & S3 & _).
  destruct (setTo_ok None m (newState 2 0) (wet y) [1; 1] []) as (s1 & E1 & V & _ & W & Ab & _); auto.
  { now apply wet_physical. } { intros x [<-|[<-|[]]]; lra. } { intros x []. }
  assert (RG : regular k (wet y) 1 1) by (intros _ (_ & _ & A); unfold hacaA in A; cbn [gT wet] in A; lra).
  destruct (mono_full m s1 (wet y) k 1 1 None eig HP HM OM HT V ltac:(lra) RG) as (m' & A & SO & _); [now rewrite W|now rewrite Ab|].
  do 3 eexists. split.
  - unfold runActions. cbn [foldM]. etransitivity; [apply (f_equal (fun r => bind r _)); exact E1|]. cbn [bind doAction]. etransitivity; [apply (f_equal (fun r => bind r _)); exact A|]. reflexivity.
  - unfold sourcesAre. rewrite SO. cbn [seq map]. assert (K0 : forall x z, kernel k (wet y) x z = 0). { intros x z. unfold kernel, k. cbn [mC]. destruct (Rlt_dec _ _); [destruct (Rlt_dec _ _)|]; reflexivity. }
    rewrite !K0. replace (1 / 1) with 1 by field. unfold oN1, nucl, k. cbn [isP mN oJ oGas oMass oConc]. unfold Jnuc, kgrow, koxid. cbn [mN mG mO nuclFormula oxidFormula].
    apply (f_equal2 cons); [f_equal; ring|]. apply (f_equal2 cons); [f_equal; ring|reflexivity].
Qed.
Lemma sphere1 : 0 < sphere 1.
Proof.
  unfold sphere. destruct (Rlt_dec 0 1); [|lra]. apply Rmult_lt_0_compat; [apply piC_pos|]. apply pow_lt, diam_pos.
Qed.

Lemma C70_oh_refuted_ eig : exists (m : model (N:=XR)) g g' st1 m1 s1 q1 st2 m2 s2 q2, physical g /\ physical g' /\ richer OH g g' /\
  constructEnum P_MONO 2 N_NONE G_HACA O_NONE C_NONE 0 T_NONE (Fin 2) 100 = Ok m /\
  runActions (None, m, newState 2 0) [setTo g [1; 1] []; ASrc eig] = Ok (st1, m1, s1) /\ sourcesAre 2 m1 q1 /\
  runActions (None, m, newState 2 0) [setTo g' [1; 1] []; ASrc eig] = Ok (st2, m2, s2) /\ sourcesAre 2 m2 q2 /\ q1 1%nat = 0 /\ 0 < q2 1%nat.
Proof.
  assert (E : exists m : model (N:=XR), constructEnum P_MONO 2 N_NONE G_HACA O_NONE C_NONE 0 T_NONE (Fin 2) 100 = Ok m) by (eexists; reflexivity).
  destruct E as (m & E). destruct (haca_call 0 m eig ltac:(lra) E) as (st1 & m1 & s1 & R1 & Q1). destruct (haca_call (1 / 10) m eig ltac:(lra) E) as (st2 & m2 & s2 & R2 & Q2).
  exists m, (wet 0), (wet (1 / 10)), st1, m1, s1. eexists. exists st2, m2, s2. eexists. split; [apply wet_physical; lra|]. split; [apply wet_physical; lra|]. split; [apply wet_richer; lra|].
  split; [exact E|]. split; [exact R1|]. split; [exact Q1|]. split; [exact R2|]. split; [exact Q2|]. cbv beta iota. rewrite grow_dry. split; [ring|].
  apply Rmult_lt_0_compat; [apply grow_wet|apply sphere1].
Qed.
(** a step from [demoGas] and the same with more of one species *)
Definition more (sp : gasSp) : gas := mkGas 1800 101325 (1 / 5) (1 / 20000) 100 (fun x => if gasSp_eq_dec x sp then 1 / 10 else 1 / 20) (fun _ => 1 / 1000).
Lemma more_physical sp : physical (more sp).
Proof.
  split; [|split].
  - repeat split; cbn [gT gP gRho gMu gCMin gY gPah more]; try lra; intros x; try (destruct (gasSp_eq_dec x sp)); lra.
  - intros x. cbn [gY more]. destruct (gasSp_eq_dec x sp); lra.
  - unfold pahVec, allPah. cbn [map fold_left gPah more]. lra.
Qed.
Lemma more_richer sp : richer sp demoGas (more sp).
Proof. repeat split; cbn [gY more demoGas]; auto; [destruct (gasSp_eq_dec sp sp); lra|]. intros x Hx. destruct (gasSp_eq_dec x sp); congruence. Qed.
