(** The statements about PAH nucleation. *)
From Coq Require Import ZArith List Bool Reals Lra Lia.
From Verif Require Import Num Defs State Coag Nucl Growth Oxid Tar SootModel Mono Qmom Calls XR XRLemmas NumLaws
  SpecState SpecChem SpecCoag SpecValid SpecRates SpecGas SpecTar SpecPah SpecPsd CoagProofs StateXR ValidProofs InterpProofs GasProofs MiscProofs RateProofs PsdProofs PahProofs MonoProofs MonoMain.
Import ListNotations.
Local Open Scope R_scope.

Section S.
Context (s : state (N:=XR)) (g : gas) (soot : list R) (V : valid s g soot) (SP : somePah g).
Context (coll : state (N:=XR) -> xr -> res (xr * list xr)) (nu : nuclObj (N:=XR)) (i : R) (eff : list xr).
Context (EN : nu_class nu = N_PAH) (Hi : 0 <= i).
Context (EC : coll (with_cMin s (Fin (pahCMin g))) (Fin (dimerMass g)) = Ok (Fin i, eff)).
Let PT : 0 < pahTotal g. Proof. exact (pahTotal_some s g soot V SP). Qed.
Let PM : 0 < dimerMass g. Proof. exact (dimerMass_pos s g soot V PT). Qed.
Let ED : dimerMass g = meanC g * (massC / avogadro). Proof. unfold dimerMass. destruct (Rlt_dec 0 (pahTotal g)); lra. Qed.
Let ECM : pahCMin g = 2 * meanC g + gCMin g / pahTotal g. Proof. unfold pahCMin. destruct (Rlt_dec 0 (pahTotal g)); lra. Qed.

Lemma conc_steady : steady (betaSelf (gT g) (dimerMass g)) i (pahTotal g / 2) (dimerConc g i).
Proof.
  unfold dimerConc. destruct (Rlt_dec 0 (pahTotal g)); [|lra]. apply steady_val; auto; [|lra].
  apply betaSelf_pos; auto. exact (v_Tpos _ _ _ V).
Qed.
Lemma carbon_mean : pahCarbon g = pahTotal g * dimerMass g.
Proof.
  rewrite ED. unfold pahCarbon, meanC. rewrite pahSum_scale. pose proof avo_pos. field. split; lra.
Qed.

Lemma C42_ : exists nu' J n,
  nuclRate coll nu s = Ok (Fin J, nu', with_cMin s (Fin (pahCMin g)), Some eff) /\
  mDimer nu' = Fin (meanC g * (massC / avogadro)) /\ nDimer nu' = Fin n /\ nDotD nu' = Fin (pahTotal g / 2) /\
  steady (betaSelf (gT g) (meanC g * (massC / avogadro))) i (pahTotal g / 2) n /\
  J = 1 / 2 * (betaSelf (gT g) (meanC g * (massC / avogadro)) * n ^ 2).
Proof.
  exists (pahObj g nu i), (pahNuclRate g i), (dimerConc g i).
  split; [|split; [|split; [|split; [|split]]]].
  - unfold nuclRate. rewrite EN. rewrite (nuclPAH_val s g soot V coll nu i eff Hi EC). reflexivity.
  - unfold pahObj. cbn [mDimer]. now rewrite ED.
  - reflexivity.
  - reflexivity.
  - rewrite <- ED. exact conc_steady.
  - rewrite <- ED. unfold pahNuclRate. ring.
Qed.

Lemma C43_ : exists nu' s' J n mD c,
  nuclRate coll nu s = Ok (Fin J, nu', s', Some eff) /\ nDimer nu' = Fin n /\ mDimer nu' = Fin mD /\ cMin s' = Fin c /\
  nu_pah nu' = map (fun sp => Fin (- (pahLoss g sp * pahMass sp))) allPah /\
  J * (c * massC / avogadro) + i * n * mD = 1 / 2 * pahCarbon g + J * (gCMin g / pahTotal g) * (massC / avogadro).
Proof.
  exists (pahObj g nu i), (with_cMin s (Fin (pahCMin g))), (pahNuclRate g i), (dimerConc g i), (dimerMass g), (pahCMin g).
  split; [|split; [|split; [|split; [|split]]]]; try reflexivity.
  - unfold nuclRate. rewrite EN. rewrite (nuclPAH_val s g soot V coll nu i eff Hi EC). reflexivity.
  - unfold pahObj. cbn [nu_pah]. apply map_ext. intros. f_equal. ring.
  - destruct conc_steady as (_ & ES & _). rewrite carbon_mean, ECM. unfold pahNuclRate. pose proof avo_pos.
    replace (1 / 2 * (pahTotal g * dimerMass g)) with (dimerMass g * (pahTotal g / 2)) by field. rewrite <- ES. 
    set (b := betaSelf (gT g) (dimerMass g)). rewrite ED. field. lra.
Qed.
End S.

Lemma pahTotal_cmin g c : pahTotal (gasCMin g c) = pahTotal g. Proof. reflexivity. Qed.
Lemma meanC_cmin g c : meanC (gasCMin g c) = meanC g. Proof. reflexivity. Qed.

(** two calls in a row *)
Lemma C44_ (m : model (N:=XR)) s g k M0 M1 st eig :
  sm_psd m = P_MONO -> hasAll m k -> okAll k -> noTar m -> mN k = N_PAH -> somePah g ->
  valid s g [M0; M1] -> 0 < M0 -> regular k g M0 M1 -> length (wts s) = 1%nat -> length (absc s) = 1%nat ->
  let c1 := 2 * meanC g + gCMin g / pahTotal g in
  let c2 := 2 * meanC g + c1 / pahTotal g in
  exists m1 s1 m2 s2 n0 J f1 f2,
    setSourceTerms st eig m s = Ok (st, m1, s1) /\ setSourceTerms st eig m1 s1 = Ok (st, m2, s2) /\
    cMin s1 = Fin c1 /\ cMin s2 = Fin c2 /\ soots m1 = [Fin n0; Fin f1] /\ soots m2 = [Fin n0; Fin f2] /\
    0 < J /\ f2 - f1 = J * (c2 - c1) * (massC / avogadro) /\ (c1 <> gCMin g -> f1 <> f2).
Proof.
  intros Hp HM OM HT HP SP V P0 RG LW LA c1 c2.
  assert (E : isP k = true) by now apply isP_true.
  assert (PT := pahTotal_some s g _ V SP).
  assert (EC1 : pahCMin g = c1) by (unfold pahCMin; destruct (Rlt_dec 0 (pahTotal g)); [reflexivity|lra]).
  destruct (mono_full m s g k M0 M1 st eig Hp HM OM HT V P0 RG LW LA) as (m1 & E1 & S1 & _ & _ & H1 & Hp1 & HT1).
  set (x := M1 / M0) in *. set (s1 := outS k g (with_wa s [Fin M0] [Fin x])) in *.
  assert (Es1 : s1 = with_cMin (with_wa s [Fin M0] [Fin x]) (Fin c1)) by (unfold s1, outS; rewrite E, EC1; reflexivity).
  assert (V1 : valid s1 (gasCMin g c1) [M0; M1]).
  { rewrite Es1. apply valid_cMin; [exact V|]. rewrite <- EC1. exact (pahCMin_pos s g _ V). }
  destruct (mono_full m1 s1 (gasCMin g c1) k M0 M1 st eig Hp1 H1 OM HT1 V1 P0) as (m2 & E2 & S2 & _); [exact RG|now rewrite Es1|now rewrite Es1|].
  fold x in E2, S2. set (s2 := outS k (gasCMin g c1) (with_wa s1 [Fin M0] [Fin x])) in *.
  change (dimerMass (gasCMin g c1)) with (dimerMass g) in S2.
  change (kernel k (gasCMin g c1)) with (kernel k g) in S2. change (kgrow k (gasCMin g c1) M0 M1) with (kgrow k g M0 M1) in S2.
  change (koxid k (gasCMin g c1) M0 M1) with (koxid k g M0 M1) in S2.
  set (i := M0 * kernel k g (dimerMass g) x) in *.
  assert (Hi : 0 <= i). { unfold i. apply Rmult_le_pos; [lra|]. destruct OM as (_ & _ & _ & _ & _ & OF). eapply kernel_nneg; eauto. }
  assert (EC2 : pahCMin (gasCMin g c1) = c2).
  { unfold pahCMin. rewrite pahTotal_cmin, meanC_cmin. destruct (Rlt_dec 0 (pahTotal g)); [reflexivity|lra]. }
  unfold nucl in S1, S2. rewrite E in S1, S2. unfold oN1 in S1, S2. cbn [oJ oGas oMass oConc] in S1, S2.
  change (pahNuclRate (gasCMin g c1) i) with (pahNuclRate g i) in S2. change (dimerConc (gasCMin g c1) i) with (dimerConc g i) in S2.
  change (dimerMass (gasCMin g c1)) with (dimerMass g) in S2.
  unfold nucMass in S1, S2. cbn [gCMin gasCMin] in S1, S2. rewrite EC1 in S1. rewrite EC2 in S2.
  destruct (conc_steady s g _ V SP i Hi) as (PN & _).
  pose proof (betaSelf_pos (gT g) (dimerMass g) (v_Tpos _ _ _ V) (dimerMass_pos s g _ V PT)) as PB.
  assert (PJ : 0 < pahNuclRate g i). { unfold pahNuclRate. apply Rmult_lt_0_compat; [lra|]. now apply pow_lt. }
  exists m1, s1, m2, s2. eexists. exists (pahNuclRate g i). eexists. eexists.
  split; [exact E1|]. split; [exact E2|]. split; [rewrite Es1; reflexivity|]. split; [unfold s2, outS; rewrite E, EC2; reflexivity|].
  split; [exact S1|]. split; [exact S2|]. split; [exact PJ|].
  pose proof avo_pos as PA. pose proof massC_pos as PMC. assert (Q1 : c1 = 2 * meanC g + gCMin g / pahTotal g) by reflexivity. assert (Q2 : c2 = 2 * meanC g + c1 / pahTotal g) by reflexivity. clearbody c2. clearbody c1.
  match goal with |- ?l = ?r /\ _ => assert (D : l = r) by (field; lra) end.
  split; [exact D|]. intros NE Q. 
  assert (D0 : pahNuclRate g i * (c2 - c1) * (massC / avogadro) = 0) by (rewrite <- D, Q; ring).
  assert (K : c2 - c1 <> 0).
  { intros K. apply NE. assert (K2 : c1 / pahTotal g = gCMin g / pahTotal g) by lra.
    apply (f_equal (fun z => z * pahTotal g)) in K2. unfold Rdiv in K2. rewrite !Rmult_assoc, !Rinv_l, !Rmult_1_r in K2 by lra. exact K2. }
  apply Rmult_integral in D0. destruct D0 as [D0|D0]; [apply Rmult_integral in D0; destruct D0; lra|].
  assert (0 < massC / avogadro) by pos. lra.
Qed.

Lemma C43_mono_ (m : model (N:=XR)) s g k M0 M1 st eig :
  sm_psd m = P_MONO -> hasAll m k -> okAll k -> noTar m -> mN k = N_PAH -> mG k = G_NONE -> mO k = O_NONE -> somePah g ->
  valid s g [M0; M1] -> 0 < M0 -> length (wts s) = 1%nat -> length (absc s) = 1%nat ->
  exists m' s' a J, setSourceTerms st eig m s = Ok (st, m', s') /\ 0 < J /\
    soots m' = [Fin a; Fin (1 / 2 * pahCarbon g + J * (gCMin g / pahTotal g) * (massC / avogadro))] /\
    pahs m' = map (fun sp => Fin (- (pahLoss g sp * pahMass sp))) allPah.
Proof.
  intros Hp HM OM HT HP HG HO SP V P0 LW LA.
  assert (E : isP k = true) by now apply isP_true.
  assert (RG : regular k g M0 M1) by (intros [K|K]; congruence).
  destruct (mono_full m s g k M0 M1 st eig Hp HM OM HT V P0 RG LW LA) as (m1 & E1 & S1 & _ & Pa & _).
  set (x := M1 / M0) in *. set (i := M0 * kernel k g (dimerMass g) x) in *.
  assert (Hi : 0 <= i). { unfold i. apply Rmult_le_pos; [lra|]. destruct OM as (_ & _ & _ & _ & _ & OF). eapply kernel_nneg; eauto. }
  assert (PT := pahTotal_some s g _ V SP).
  destruct (conc_steady s g _ V SP i Hi) as (PN & _).
  pose proof (betaSelf_pos (gT g) (dimerMass g) (v_Tpos _ _ _ V) (dimerMass_pos s g _ V PT)) as PB.
  assert (PJ : 0 < pahNuclRate g i). { unfold pahNuclRate. apply Rmult_lt_0_compat; [lra|]. now apply pow_lt. }
  destruct (C43_ s g _ V SP (fun _ _ => Ok (Fin i, [])) (newNucl (N:=XR) N_PAH) i [] eq_refl Hi eq_refl) as (nu' & s' & J & n & mD & c & EN & En & Em & Ec & _ & B).
  unfold nuclRate in EN. cbn [nu_class newNucl] in EN. rewrite (nuclPAH_val s g _ V (fun _ _ => Ok (Fin i, [])) _ i [] Hi eq_refl) in EN. cbn [bind] in EN.
  assert (Q1 : J = pahNuclRate g i) by congruence. assert (Q2 : pahObj g (newNucl N_PAH) i = nu') by congruence.
  assert (Q3 : s' = with_cMin s (Fin (pahCMin g))) by congruence. subst s' nu' J. cbn [nDimer pahObj mDimer with_cMin cMin] in En, Em, Ec.
  assert (n = dimerConc g i) by congruence. assert (mD = dimerMass g) by congruence. assert (c = pahCMin g) by congruence. subst n mD c.
  eexists m1, _, _, (pahNuclRate g i). split; [exact E1|]. split; [exact PJ|]. split.
  - rewrite S1. unfold nucl. rewrite E. unfold oN1. cbn [oJ oGas oMass oConc]. apply f_equal2; [reflexivity|]. apply f_equal2; [|reflexivity]. f_equal.
    rewrite (kg_none _ _ _ _ HG), (ko_none _ _ _ _ HO). rewrite <- B. unfold nucMass. cbn [gCMin gasCMin]. unfold i. ring.
  - rewrite Pa. unfold pahSourcesOf. rewrite E. apply map_ext. intros. f_equal. ring.
Qed.
