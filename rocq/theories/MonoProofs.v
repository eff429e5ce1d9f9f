(** The monodisperse model on extended reals. *)
From Coq Require Import ZArith List Bool Reals Lra Lia.
From Verif Require Import Num Defs State Coag Nucl Growth Oxid Tar SootModel Mono Qmom Calls XR XRLemmas NumLaws
  SpecChem SpecCoag SpecValid SpecRates SpecGas SpecPsd SpecPah CoagProofs StateXR ValidProofs InterpProofs GasProofs RateProofs PsdProofs PahProofs.
Import ListNotations.
Local Open Scope R_scope.

Lemma Fin0 x : x = 0 -> Fin x = Fin 0. Proof. now intros ->. Qed.
Lemma ifFin (b : bool) x : (b = false -> x = 0) -> (if b then Fin x else Fin 0) = Fin x.
Proof. destruct b; auto. intros H. now rewrite H. Qed.

Lemma monoArea_val M0 M1 : 0 <= M0 -> 0 <= M1 -> monoArea (N:=XR) (Fin M0) (Fin M1) = Fin (surface M0 M1).
Proof.
  intros H0 H1. rewrite <- growArea_val by auto. unfold monoArea, growArea.
  change (@nltb XR) with xltb. change (@nZ XR 0) with (Fin 0). unfold xltb. destruct (Rlt_dec 0 M0); auto.
Qed.

Section S.
Context (m m2 : model (N:=XR)) (s s2 : state (N:=XR)) (g : gas) (k : mechs) (M0 M1 w x J mD nD : R) (wr ar : list xr).
Context (Hp : sm_psd m2 = P_MONO) (HM : hasGOC m2 k) (OC : mC k <> C_size) (OF : 0 < mF k).
Context (V : valid s2 g [M0; M1]) (RG : regular k g M0 M1).
Context (EW : wts s2 = Fin w :: wr) (EA : absc s2 = Fin x :: ar).
Context (EJ : runNucl (collSum (sm_coag m)) m s = Ok (Fin J, m2, s2)) (ZJ : nuclOn m2 = false -> J = 0).
Context (ED : isPAH m2 = true -> mDimer (sm_nucl m2) = Fin mD /\ nDimer (sm_nucl m2) = Fin nD) (ZD : isPAH m2 = false -> mD = 0).
Let P0 : 0 <= M0. Proof. apply (v_sootpos _ _ _ V). cbn; auto. Qed.
Let P1 : 0 <= M1. Proof. apply (v_sootpos _ _ _ V). cbn; auto. Qed.

Definition monoT : monoTerms (N:=XR) :=
  mkMT (N:=XR) (Fin J) (Fin (J * nucMass g)) (Fin (kernel k g mD x * w * nD * mD)) (Fin (surface M0 M1))
       (Fin (kgrow k g M0 M1 * surface M0 M1)) (Fin (- (koxid k g M0 M1 * surface M0 M1)))
       (Fin (- (1 / 2 * kernel k g x x * w ^ 2))).
Lemma goc_grow : growOn m2 = false -> kgrow k g M0 M1 = 0.
Proof. destruct HM as (HG & _). unfold growOn, kgrow. rewrite HG. cbn [newGrow gr_mech]. destruct (mG k); try discriminate. reflexivity. Qed.
Lemma goc_oxid : oxidOn m2 = false -> koxid k g M0 M1 = 0.
Proof. destruct HM as (_ & HG & _). unfold oxidOn, koxid. rewrite HG. cbn [newOxid ox_mech]. destruct (mO k); try discriminate. reflexivity. Qed.
Lemma goc_coag a b : coagOn m2 = false -> kernel k g a b = 0.
Proof.
  destruct HM as (_ & _ & HG). unfold coagOn, kernel. rewrite HG. cbn. intros H.
  destruct (Rlt_dec massCutoff a); auto. destruct (Rlt_dec massCutoff b); auto. destruct (mC k); auto; discriminate.
Qed.
Lemma chem_two : chemRates (collSum (sm_coag m)) m s = Ok (Fin J, Fin (kgrow k g M0 M1), Fin (koxid k g M0 M1), m2, s2).
Proof.
  assert (SM : seesMoments (viewOf m2) [M0; M1] M0 M1) by (apply sees_moment; rewrite Hp; discriminate).
  unfold chemRates. rewrite EJ. cbn [bind].
  rewrite (grow_val _ _ _ _ _ _ _ V HM SM RG). cbn [bind].
  rewrite (oxid_val _ _ _ _ _ _ _ V HM SM RG). reflexivity.
Qed.
Lemma monoTerms_val : monoTermsOf (Fin M0) (Fin M1) m s = Ok (monoT, m2, s2).
Proof.
  unfold monoTermsOf. rewrite chem_two. cbn [bind]. rewrite EA, EW. cbn [vget nth_error bind].
  rewrite monoArea_val by auto.
  assert (EC : sm_coag m2 = with_f (mC k) (mF k)) by (destruct HM as (_ & _ & E); exact E).
  rewrite EC, (v_cMin _ _ _ V). cbv zeta.
  assert (ECn : (if isPAH m2 return res (@num XR) then Ok (@nmul XR (@nmul XR (@nmul XR (coagRate (with_f (mC k) (mF k)) s2 (mDimer (sm_nucl m2)) (Fin x)) (Fin w)) (nDimer (sm_nucl m2))) (mDimer (sm_nucl m2))) else Ok (nZ 0))
     = Ok (Fin (kernel k g mD x * w * nD * mD))).
  { destruct (isPAH m2).
    - destruct ED as (E1 & E2); auto. rewrite E1, E2, (kernel_val s2 g [M0; M1]) by auto. reflexivity.
    - rewrite ZD by auto. change (@nZ XR 0) with (Fin 0). do 2 f_equal. ring. }
  rewrite ECn. cbn [bind]. clear ECn.
  rewrite (kernel_val s2 g [M0; M1]) by auto.
  assert (EN : (if nuclOn m2 return @num XR then Fin J else nZ 0) = Fin J).
  { apply ifFin. exact ZJ. }
  assert (EN1 : (if nuclOn m2 return @num XR then @ndiv XR (@nmul XR (@nmul XR (Fin J) (Fin (gCMin g))) (MWof C_)) Na else nZ 0) = Fin (J * nucMass g)).
  { destruct (nuclOn m2) eqn:E; [|rewrite ZJ, Rmult_0_l by exact eq_refl; reflexivity].
    xsimp. vals. f_equal. unfold nucMass. field. nz. }
  assert (EG : (if growOn m2 return @num XR then @nmul XR (Fin (kgrow k g M0 M1)) (Fin (surface M0 M1)) else nZ 0) = Fin (kgrow k g M0 M1 * surface M0 M1)).
  { apply ifFin. intros H; rewrite (goc_grow H). ring. }
  assert (EX : (if oxidOn m2 return @num XR then @nmul XR (@nopp XR (Fin (koxid k g M0 M1))) (Fin (surface M0 M1)) else nZ 0) = Fin (- (koxid k g M0 M1 * surface M0 M1))).
  { destruct (oxidOn m2) eqn:E; [|rewrite (goc_oxid E), Rmult_0_l, Ropp_0; reflexivity]. xsimp. f_equal. ring. }
  assert (EK : (if coagOn m2 return res (@num XR) then Ok (@nmul XR (@nmul XR (@nmul XR (nlit (-5) (-1)) (Fin (kernel k g x x))) (Fin w)) (Fin w)) else Ok (nZ 0))
               = Ok (Fin (- (1 / 2 * kernel k g x x * w ^ 2)))).
  { destruct (coagOn m2) eqn:E.
    - xsimp. do 2 f_equal. negs. field.
    - rewrite (goc_coag x x E). change (@nZ XR 0) with (Fin 0). do 2 f_equal. ring. }
  rewrite EN, EN1, EG, EX, EK. reflexivity.
Qed.
End S.

Lemma surface_sphere M0 M1 : 0 < M0 -> surface M0 M1 = M0 * sphere (M1 / M0).
Proof.
  intros P0. unfold surface, sphere. destruct (Rlt_dec 0 M0); [|lra].
  destruct (Rlt_dec 0 M1) as [P1|P1], (Rlt_dec 0 (M1 / M0)) as [Q|Q]; auto; try ring.
  - exfalso. apply Q. pos.
  - exfalso. apply P1. replace M1 with (M1 / M0 * M0) by (field; lra). now apply Rmult_lt_0_compat.
Qed.

Lemma valid_wa s g soot w a : valid s g soot -> valid (with_wa s w a) g soot.
Proof. intros H; exact H. Qed.

Lemma kg_none k g M0 M1 : mG k = G_NONE -> kgrow k g M0 M1 = 0. Proof. unfold kgrow. now intros ->. Qed.
Lemma ko_none k g M0 M1 : mO k = O_NONE -> koxid k g M0 M1 = 0. Proof. unfold koxid. now intros ->. Qed.
Lemma J_none k g : mN k = N_NONE -> Jnuc k g = 0. Proof. unfold Jnuc. now intros ->. Qed.
Lemma mono_gas m k N1 G X : hasMechs m k -> okAny k ->
  holdsGas (gasSrc m (Fin N1) (Fin G) (Fin (- X))) (reactions k N1 G X).
Proof. intros HM OM. pose proof (gasSrc_val m k N1 G (- X) HM OM) as H. rewrite Ropp_involutive in H. exact H. Qed.

(** setting the node *)
Lemma monoSetWA_val s M0 M1 w x wr ar : wts s = Fin w :: wr -> absc s = Fin x :: ar ->
  monoSetWA (N:=XR) (Fin M0) (Fin M1) s =
  Ok (with_wa s (Fin (if Rlt_dec 0 M0 then M0 else w) :: wr) (Fin (if Rlt_dec 0 M0 then M1 / M0 else x) :: ar)).
Proof.
  intros EW EA. unfold monoSetWA. change (@nltb XR) with xltb. change (@nZ XR 0) with (Fin 0). unfold xltb.
  destruct (Rlt_dec 0 M0).
  - rewrite EW, EA. unfold vset. cbn [length Nat.ltb Nat.leb bind upd].
    change (@ndiv XR) with xdiv. rewrite xdiv_fin by lra. reflexivity.
  - rewrite <- EW, <- EA. destruct s; reflexivity.
Qed.

(** collisions of dimers with the single node *)
Lemma collSum_one s g soot k mD w x : valid s g soot -> mC k <> C_size -> 0 < mF k ->
  wts s = [Fin w] -> absc s = [Fin x] ->
  collSum (with_f (mC k) (mF k)) s (Fin mD) = Ok (Fin (Rabs w * kernel k g mD x), []).
Proof.
  intros V OC OF EW EA. unfold collSum. rewrite EW, EA. cbn [length seq foldM vget nth_error bind].
  rewrite (kernel_val s g soot) by auto. change (@nabs XR) with xabs. cbn [xabs].
  do 3 f_equal. xsimp. f_equal. ring.
Qed.

(** the sources for given node [w], [x]; [o] is the outcome of nucleation *)
Definition monoSources (k : mechs) (g : gas) (o : nucOut) (M0 M1 w x : R) : list xr :=
  [Fin (oJ o - 1 / 2 * kernel k g x x * w ^ 2);
   Fin (oN1 o + kernel k g (oMass o) x * w * oConc o * oMass o + (kgrow k g M0 M1 - koxid k g M0 M1) * surface M0 M1)].

Lemma mono_run (m : model (N:=XR)) s g k M0 M1 w x st eig :
  sm_psd m = P_MONO -> hasAll m k -> okAll k -> noTar m -> valid s g [M0; M1] -> regular k g M0 M1 ->
  wts s = [Fin w] -> absc s = [Fin x] ->
  let w' := if Rlt_dec 0 M0 then M0 else w in
  let x' := if Rlt_dec 0 M0 then M1 / M0 else x in
  let o := nucl k g (Rabs w' * kernel k g (dimerMass g) x') in
  let s' := outS k g (with_wa s [Fin w'] [Fin x']) in
  exists m', setSourceTerms st eig m s = Ok (st, m', s') /\
    soots m' = monoSources k g o M0 M1 w' x' /\
    gasBudget m' k g o (kgrow k g M0 M1 * surface M0 M1) (koxid k g M0 M1 * surface M0 M1) /\
    pahs m' = pahSourcesOf k g (pahs m) /\ hasAll m' k /\ sm_psd m' = P_MONO /\ noTar m'.
Proof.
  intros Hp HM OM HT V RG EW EA w' x' o s'.
  assert (V' : valid (with_wa s [Fin w'] [Fin x']) g [M0; M1]) by exact V.
  pose proof OM as (_ & _ & OG & OO & OC & OF).
  set (i := Rabs w' * kernel k g (dimerMass g) x') in *.
  assert (Hi : 0 <= i).
  { unfold i. apply Rmult_le_pos; [apply Rabs_pos|]. eapply kernel_nneg; eauto. }
  set (m2 := outM k g m i []). set (s1 := with_wa s [Fin w'] [Fin x']) in *.
  assert (EC : sm_coag m = with_f (mC k) (mF k)) by (destruct HM as (_ & _ & _ & E); exact E).
  assert (EJ : runNucl (collSum (sm_coag m)) m s1 = Ok (Fin (oJ o), m2, s')).
  { apply (runNucl_all _ m s1 g [M0; M1] k i []); auto. intros E. rewrite EC.
    assert (Vc := outS_valid k s1 g _ i V'). unfold outS, nucl in Vc. rewrite E in Vc. cbn [oGas] in Vc.
    exact (collSum_one _ _ _ k (dimerMass g) w' x' Vc OC OF eq_refl eq_refl). }
  destruct (outM_rest k g m i []) as (R1 & _ & _ & _ & _ & R6 & _ & R8). fold m2 in R1, R6, R8.
  pose proof (outM_GOC k g m i [] (proj2 HM)) as HG. fold m2 in HG.
  pose proof (outM_all k g m i [] HM) as HA. fold m2 in HA.
  assert (V2 : valid s' (oGas o) [M0; M1]) by (apply (outS_valid k s1 g _ i V')).
  destruct (outS_rest k g s1) as (W2 & A2 & _).
  assert (TV : monoTermsOf (Fin M0) (Fin M1) m s1 = Ok (monoT (oGas o) k M0 M1 w' x' (oJ o) (oMass o) (oConc o), m2, s')).
  { apply (monoTerms_val m m2 s1 s' (oGas o) k M0 M1 w' x' (oJ o) (oMass o) (oConc o) [] []); auto.
    - congruence.
    - apply regular_out. exact RG.
    - exact (outM_off k g m i [] HM).
    - intros E. apply (outM_dimer k g m i []). rewrite <- E. unfold m2. symmetry. now apply outM_isPAH.
    - intros E. unfold m2 in E. rewrite outM_isPAH in E by auto. unfold o, nucl. rewrite E. reflexivity. }
  destruct (gasSrc_all k g m i [] (kgrow k g M0 M1 * surface M0 M1) (- (koxid k g M0 M1 * surface M0 M1)) HM OM) as (HL & HQ).
  eexists. split; [|split; [|split; [|split]]].
  - unfold setSourceTerms. rewrite Hp. unfold setSourceTermsMONO.
    rewrite (v_soot _ _ _ V). cbn [map vget nth_error bind]. rewrite (monoSetWA_val s M0 M1 w x [] [] EW EA). cbn [bind].
    unfold noTar in HT. rewrite HT. cbn [newTar ta_mech]. fold w' x' s1. rewrite TV. cbn [bind]. reflexivity.
  - unfold soots, finish, monoSources, monoT. cbn [sm_sources with_sources sootSources mt_N0 mt_C0 mt_N1 mt_Cnd1 mt_G1 mt_X1].
    unfold o. rewrite !kernel_out, kgrow_out, koxid_out. fold o.
    xsimp. unfold oN1. repeat (apply f_equal2; [f_equal; ring|]). reflexivity.
  - unfold monoT, finish, gases, o. cbn [sm_sources with_sources gasSources mt_N1 mt_G1 mt_X1]. rewrite kgrow_out, koxid_out.
    unfold gasBudget. split; [exact HL|]. intros sp. rewrite Ropp_involutive in HQ. exact (HQ sp).
  - unfold pahs, finish, pahSourcesOf. cbn [sm_sources with_sources pahSources]. unfold m2. rewrite outM_isPAH by auto.
    destruct (isP k) eqn:E; [now apply outM_pah|]. fold m2. rewrite R8. reflexivity.
  - split; [exact HA|]. split; [exact (eq_trans R1 Hp)|]. exact (eq_trans R6 HT).
Qed.
