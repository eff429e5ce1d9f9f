(** PAH nucleation with an arbitrary, possibly not finite, collision rate. *)
From Coq Require Import ZArith List Bool Reals Lra Lia.
From Verif Require Import Num Defs State Coag Nucl Growth Oxid Tar SootModel XR XRLemmas NumLaws
  SpecChem SpecCoag SpecValid SpecRates SpecGas SpecPsd SpecPah CoagProofs StateProofs StateXR ValidProofs InterpProofs GasProofs RateProofs PsdProofs PahProofs.
Import ListNotations.
Local Open Scope R_scope.

(** without PAH the collision rate does not matter *)
Lemma nuclPAH_none (s : state (N:=XR)) g soot coll nu Ib eff : valid s g soot -> noPah g ->
  coll (with_cMin s (Fin (pahCMin g))) (Fin (dimerMass g)) = Ok (Ib, eff) ->
  nuclPAH coll nu s = Ok (Fin 0, pahObj g nu 0, with_cMin s (Fin (pahCMin g)), eff).
Proof.
  intros V HN EC. pose proof (pahTotal_none g HN) as E0.
  assert (EQ0 : dimerMass g = 0) by (unfold dimerMass; destruct (Rlt_dec 0 (pahTotal g)); [lra|ring]).
  assert (EN : dimerConc g 0 = 0) by (unfold dimerConc; destruct (Rlt_dec 0 (pahTotal g)); [lra|ring]).
  pose proof (nuclPAH_val s g soot V (fun _ _ => Ok (Fin 0, eff)) nu 0 eff (Rle_refl 0) eq_refl) as E.
  replace (pahNuclRate g 0) with 0 in E by (unfold pahNuclRate; rewrite EN; ring).
  rewrite <- E. clear E. unfold nuclPAH. rewrite (pahLoop_val s g soot V). cbn [bind a_nDotD a_mDimer a_cMin a_hMin a_rates].
  rewrite (dimerRate_half g). change (@nltb XR) with xltb. change (@nZ XR 0) with (Fin 0). rewrite (xltb_false 0 (pahTotal g / 2)) by lra. cbn [andb].
  assert (Z : forall sp, pahLoss g sp = 0) by (intros; apply pahLoss0, HN).
  assert (S1 : pahSum (fun sp => pahLoss g sp * IZR (pahAtomsC sp) * massC / avogadro) = dimerMass g).
  { unfold pahSum, sumR, allPah. cbn [map fold_right]. rewrite !Z, EQ0. unfold Rdiv. ring. }
  assert (S2 : gCMin g + pahSum (fun sp => pahLoss g sp * 2 * IZR (pahAtomsC sp)) = pahCMin g).
  { unfold pahCMin. destruct (Rlt_dec 0 (pahTotal g)); [lra|]. unfold pahSum, sumR, allPah. cbn [map fold_right]. rewrite !Z. ring. }
  rewrite S1, S2, EC. reflexivity.
Qed.

(** with PAH a NaN collision rate gives NaN *)
Lemma nuclPAH_nan (s : state (N:=XR)) g soot coll nu eff : valid s g soot -> somePah g ->
  coll (with_cMin s (Fin (pahCMin g))) (Fin (dimerMass g)) = Ok (NaN, eff) ->
  exists nu', nuclPAH coll nu s = Ok (NaN, nu', with_cMin s (Fin (pahCMin g)), eff) /\ nu_mech nu' = nu_mech nu /\ nu_class nu' = nu_class nu.
Proof.
  intros V HN EC. pose proof (pahTotal_some s g soot V HN) as P0. pose proof (dimerMass_pos s g soot V P0) as PM.
  assert (CM : forall coll', nuclPAH coll' nu s = (r <- coll' (with_cMin s (Fin (pahCMin g))) (Fin (dimerMass g)) ;;
    let '(Ib, eff) := r in
    let b := @nmul XR (pahPreFac (with_cMin s (Fin (pahCMin g)))) (@npow XR (Fin (dimerMass g)) (@ndiv XR (nZ 1) (nZ 6))) in
    let nD := @ndiv XR (@nmul XR (nZ 2) (Fin (pahTotal g / 2))) (@nadd XR Ib (@nsqrt XR (@nadd XR (@nmul XR Ib Ib) (@nmul XR (@nmul XR (nZ 4) b) (Fin (pahTotal g / 2)))))) in
    Ok (@nmul XR (@nmul XR (@nmul XR (nlit 5 (-1)) b) nD) nD, 
        mkNucl (N:=XR) (nu_class nu) (nu_mech nu) (Fin (dimerMass g)) nD (Fin (pahTotal g / 2))
          (ratioTable (N:=XR) (nu_ratios nu) [(C_, nZ 1); (H2, @ndiv XR (@ndiv XR (Fin (pahHMin g)) (nZ 2)) (Fin (pahCMin g)))])
          (map (fun sp => Fin (- pahLoss g sp * pahMass sp)) allPah), with_cMin s (Fin (pahCMin g)), eff))).
  { intros coll'. unfold nuclPAH. rewrite (pahLoop_val s g soot V). cbn [bind a_nDotD a_mDimer a_cMin a_hMin a_rates].
    rewrite (dimerRate_half g). change (@nltb XR) with xltb. change (@nZ XR 0) with (Fin 0). rewrite (xltb_true 0 (pahTotal g / 2)) by lra. cbn [andb].
    assert (E1 : forall x, @ndiv XR (Fin x) (@nmul XR (nZ 2) (Fin (pahTotal g / 2))) = Fin (x / pahTotal g)).
    { intros x. xsimp. f_equal. field. lra. }
    rewrite !E1. clear E1.
    assert (S1 : pahSum (fun sp => pahLoss g sp * IZR (pahAtomsC sp) * massC / avogadro) / pahTotal g = dimerMass g).
    { unfold dimerMass, meanC. destruct (Rlt_dec 0 (pahTotal g)); [|lra]. unfold pahSum, sumR, allPah. cbn [map fold_right]. field. split; nz. }
    assert (S2 : (gCMin g + pahSum (fun sp => pahLoss g sp * 2 * IZR (pahAtomsC sp))) / pahTotal g = pahCMin g).
    { unfold pahCMin, meanC. destruct (Rlt_dec 0 (pahTotal g)); [|lra]. unfold pahSum, sumR, allPah. cbn [map fold_right]. field. nz. }
    assert (S3 : pahSum (fun sp => pahLoss g sp * 2 * IZR (pahAtomsH sp)) / pahTotal g = pahHMin g).
    { unfold pahHMin, meanH. destruct (Rlt_dec 0 (pahTotal g)); [|lra]. unfold pahSum, sumR, allPah. cbn [map fold_right]. field. nz. }
    rewrite S1, S2, S3. rewrite (xltb_true 0 (dimerMass g)) by auto. reflexivity. }
  rewrite CM, EC. clear CM EC. cbn [bind]. cbv zeta. lazymatch goal with |- exists nu', Ok (_, ?n, _, _) = _ /\ _ => exists n end. split; [|split; reflexivity].
  set (b := @nmul XR (pahPreFac (with_cMin s (Fin (pahCMin g)))) _). f_equal. f_equal. f_equal. f_equal.
  change (@nmul XR) with xmul. change (@ndiv XR) with xdiv. change (@nadd XR) with xadd. change (@nsqrt XR) with xsqrt.
  cbn [xmul xadd xsqrt]. change (@nZ XR 2) with (Fin 2). cbn [xdiv xmul]. destruct (xmul _ b); reflexivity.
Qed.
