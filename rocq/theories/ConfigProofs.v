(** Constructors of the soot models and name maps. *)
From Coq Require Import ZArith List String Bool Arith Lia.
From Verif Require Import Num Defs State Coag Nucl Growth Oxid Tar SootModel SpecConfig SpecChem.
Import ListNotations.

Section Config.
Context {N : Num}.

Lemma needFmContHm_ok c : needFmContHm c = Ok tt <-> In c [C_FM; C_CONTINUUM; C_HM].
Proof. destruct c; cbn; intuition congruence. Qed.

Lemma derivedCheck_spec p n c t : derivedCheck p n c t = Ok tt <-> documented p n c t.
Proof.
  split.
  - destruct p; cbn [derivedCheck]; try discriminate.
    + destruct (Nat.eqb_spec n 2); [subst; intros _; constructor|discriminate].
    + destruct (Nat.eqb_spec n 3); cbn [negb]; [subst|discriminate].
      destruct t; cbn [needNoTar bind]; try discriminate. intros H; constructor. now apply needFmContHm_ok.
    + destruct (Nat.eqb_spec (Nat.modulo n 2) 1); cbn [orb]; [discriminate|].
      destruct (Nat.ltb_spec n 1); [discriminate|].
      destruct t; cbn [needNoTar]; try discriminate. intros _.
      assert (E : n = 2 * (n / 2)).
      { pose proof (Nat.div_mod n 2 ltac:(lia)). pose proof (Nat.mod_upper_bound n 2 ltac:(lia)). lia. }
      rewrite E. constructor. lia.
    + destruct (Nat.ltb_spec n 3); cbn [orb]; [discriminate|].
      destruct (Nat.ltb_spec 8 n); [discriminate|].
      destruct t; cbn [needNoTar bind]; try discriminate. intros H1; constructor; [lia|]. now apply needFmContHm_ok.
    + destruct (Nat.ltb_spec n 2); [discriminate|].
      destruct t; cbn [needNoTar]; try discriminate. constructor; lia.
    + destruct (Nat.ltb_spec n 4); cbn [orb]; [discriminate|].
      destruct (Nat.ltb_spec 9 n); [discriminate|].
      destruct t; cbn [needNoTar bind]; try discriminate. intros H1; constructor; [lia|]. now apply needFmContHm_ok.
  - intros H; destruct H; cbn [derivedCheck].
    + reflexivity.
    + cbn [Nat.eqb negb needNoTar bind]. now apply needFmContHm_ok.
    + replace (Nat.modulo (2 * k) 2) with 0 by (rewrite Nat.mul_comm, Nat.mod_mul; lia).
      cbn [Nat.eqb orb]. destruct (Nat.ltb_spec (2 * k) 1); [lia|reflexivity].
    + destruct (Nat.ltb_spec n 3); [lia|]. destruct (Nat.ltb_spec 8 n); [lia|].
      cbn [orb needNoTar bind]. now apply needFmContHm_ok.
    + destruct (Nat.ltb_spec n 2); [lia|reflexivity].
    + destruct (Nat.ltb_spec n 4); [lia|]. destruct (Nat.ltb_spec 9 n); [lia|].
      cbn [orb needNoTar bind]. now apply needFmContHm_ok.
Qed.
Lemma derivedCheck_noUB p n c t u : derivedCheck p n c t <> UB u.
Proof.
  destruct p, t; cbn [derivedCheck needNoTar bind]; repeat match goal with |- context[if ?b then _ else _] => destruct b end;
    try discriminate; destruct c; discriminate.
Qed.

(** successful construction, in full *)
Definition builtFrom (m : model) (p : psdMech) (ns : nat) (n : nucleationMech) (g : growthMech) (o : oxidationMech)
  (c : coagulationMech) (nt : nat) (t : tarMech) : Prop :=
  sm_psd m = p /\ sm_nsoot m = ns /\ sm_Ntar m = nt /\ sm_newed m = true /\
  sm_nucl m = newNucl n /\ sm_grow m = newGrow g /\ sm_oxid m = newOxid o /\ sm_coag m = newCoag c /\ sm_tar m = newTar t /\
  sm_sources m = newSources ns nt.

Lemma construct_ok p ns n g o c nt t F k m :
  constructEnum p ns n g o c nt t F k = Ok m <->
  realMechs n g o c t /\ documented p ns c t /\
  m = mkModel p ns nt (newNucl n) (newGrow g) (newOxid o) (newCoag c) (newTar t) true (initBins p ns F k)
        (newSources ns nt) (initPriv p ns n F).
Proof.
  unfold constructEnum, realMechs. split.
  - destruct n eqn:En; cbn [mkNuclEnum bind]; try discriminate; rewrite <- En in *;
    destruct g eqn:Eg; cbn [mkGrowEnum bind]; try discriminate; rewrite <- Eg in *;
    (destruct o eqn:Eo; cbn [mkOxidEnum bind]; try discriminate; rewrite <- Eo in *);
    (destruct (mkCoagEnum c) as [co| |] eqn:Ec; cbn [bind]; try discriminate);
    (destruct (mkTarEnum t) as [ta| |] eqn:Et; cbn [bind]; try discriminate); unfold build;
    (assert (Hc : co = newCoag c /\ c <> C_size) by (destruct c; inversion Ec; split; congruence));
    (assert (Ht : ta = newTar t /\ t <> T_size) by (destruct t; inversion Et; split; congruence));
    destruct Hc as [-> Hc], Ht as [-> Ht]; cbn [co_mech ta_mech newCoag newTar nu_mech newNucl];
    (destruct (derivedCheck p ns c t) as [[]| |] eqn:ED; cbn [bind]; try discriminate);
    intros H; inversion H; subst m; apply derivedCheck_spec in ED; rewrite <- ?En, <- ?Eg, <- ?Eo;
    (split; [repeat split; congruence|]); (split; [exact ED|]); subst; reflexivity.
  - intros ((Hn & Hg & Ho & Hc & Ht) & D & ->). apply derivedCheck_spec in D.
    assert (E1 : mkNuclEnum n = Ok (newNucl n)) by (destruct n; congruence || reflexivity).
    assert (E2 : mkGrowEnum g = Ok (newGrow g)) by (destruct g; congruence || reflexivity).
    assert (E3 : mkOxidEnum o = Ok (newOxid o)) by (destruct o; congruence || reflexivity).
    assert (E4 : mkCoagEnum c = Ok (newCoag c)) by (destruct c; congruence || reflexivity).
    assert (E5 : mkTarEnum t = Ok (newTar t)) by (destruct t; congruence || reflexivity).
    rewrite E1, E2, E3, E4, E5. cbn [bind]. unfold build. cbn [co_mech ta_mech newCoag newTar nu_mech newNucl].
    rewrite D. reflexivity.
Qed.
Lemma construct_noUB p ns n g o c nt t F k u : constructEnum p ns n g o c nt t F k <> UB u.
Proof.
  unfold constructEnum. destruct (mkNuclEnum n) as [nu| |] eqn:E1; [|discriminate|destruct n; discriminate].
  destruct (mkGrowEnum g) as [gr| |] eqn:E2; [|discriminate|destruct g; discriminate].
  destruct (mkOxidEnum o) as [ox| |] eqn:E3; [|discriminate|destruct o; discriminate].
  destruct (mkCoagEnum c) as [co| |] eqn:E4; [|discriminate|destruct c; discriminate].
  destruct (mkTarEnum t) as [ta| |] eqn:E5; [|discriminate|destruct t; discriminate].
  cbn [bind]. unfold build. pose proof (derivedCheck_noUB p ns (co_mech co) (ta_mech ta)) as H.
  destruct (derivedCheck p ns (co_mech co) (ta_mech ta)); cbn [bind]; try discriminate. now specialize (H u0).
Qed.

Lemma C08_main p ns n g o c nt t F k :
  (realMechs n g o c t /\ documented p ns c t ->
     exists m, constructEnum p ns n g o c nt t F k = Ok m /\
       sm_psd m = p /\ sm_nsoot m = ns /\ sm_Ntar m = nt /\
       List.length (sootSources (sm_sources m)) = ns /\ List.length (gasSources (sm_sources m)) = 11%nat /\
       List.length (pahSources (sm_sources m)) = 6%nat /\ List.length (tarSources (sm_sources m)) = nt) /\
  (~ (realMechs n g o c t /\ documented p ns c t) ->
     exists e, constructEnum p ns n g o c nt t F k = Throw e).
Proof.
  split.
  - intros [R D]. eexists. split; [apply construct_ok; split; [exact R|split; [exact D|reflexivity]]|].
    cbn [sm_psd sm_nsoot sm_Ntar sm_sources newSources sootSources gasSources pahSources tarSources].
    unfold zeros. rewrite !repeat_length. repeat split.
  - intros H. destruct (constructEnum p ns n g o c nt t F k) as [m|e|u] eqn:E.
    + apply construct_ok in E. tauto.
    + eauto.
    + now apply construct_noUB in E.
Qed.

Lemma C08_ptr p ns nu gr ox co nt ta F k :
  (documented p ns (co_mech co) (ta_mech ta) ->
     exists m, constructPtr p ns nu gr ox co nt ta F k = Ok m /\
       sm_psd m = p /\ sm_nsoot m = ns /\ sm_Ntar m = nt /\
       sm_nucl m = nu /\ sm_grow m = gr /\ sm_oxid m = ox /\ sm_coag m = co /\ sm_tar m = ta /\
       List.length (sootSources (sm_sources m)) = ns /\ List.length (gasSources (sm_sources m)) = 11%nat /\
       List.length (pahSources (sm_sources m)) = 6%nat /\ List.length (tarSources (sm_sources m)) = nt) /\
  (~ documented p ns (co_mech co) (ta_mech ta) ->
     exists e, constructPtr p ns nu gr ox co nt ta F k = Throw e).
Proof.
  unfold constructPtr, build. split.
  - intros D. apply derivedCheck_spec in D. rewrite D. cbn [bind]. eexists. split; [reflexivity|].
    cbn [sm_psd sm_nsoot sm_Ntar sm_nucl sm_grow sm_oxid sm_coag sm_tar sm_sources newSources sootSources gasSources pahSources tarSources].
    unfold zeros. rewrite !repeat_length. repeat split.
  - intros D. destruct (derivedCheck p ns (co_mech co) (ta_mech ta)) as [[]|e|u] eqn:E.
    + apply derivedCheck_spec in E. tauto.
    + cbn [bind]. eauto.
    + now apply derivedCheck_noUB in E.
Qed.

Lemma C09_main p ns n g o c nt t F k m : constructEnum p ns n g o c nt t F k = Ok m ->
  nu_mech (sm_nucl m) = n /\ gr_mech (sm_grow m) = g /\ co_mech (sm_coag m) = c /\ ta_mech (sm_tar m) = t /\
  ox_mech (sm_oxid m) = (match o with O_FAIR => O_LL | _ => o end).
Proof. intros E. apply construct_ok in E. destruct E as (_ & _ & ->). repeat split. Qed.
End Config.

(** name maps *)
Lemma C52_inv g s : gasSpMapSE s = Some g <-> gasSpMapES g = s.
Proof.
  split.
  - unfold gasSpMapSE.
    repeat match goal with |- context[(s =? ?q)%string] => destruct (String.eqb_spec s q) end;
      intros H; inversion H; subst; reflexivity.
  - intros <-. destruct g; reflexivity.
Qed.
Lemma C52_idx i s : gasSpMapIS i = Some s <-> exists g, gasIdx g = i /\ gasSpMapES g = s.
Proof.
  split.
  - unfold gasSpMapIS. do 11 (destruct i as [|i]; [cbn; intros H; inversion H; subst;
      first [exists O2; split; reflexivity|exists O_; split; reflexivity|exists H2; split; reflexivity
    |exists H_; split; reflexivity|exists OH; split; reflexivity|exists H2O; split; reflexivity|exists CO; split; reflexivity
    |exists C2H2; split; reflexivity|exists C6H6; split; reflexivity|exists C_; split; reflexivity|exists CO2; split; reflexivity]|]).
    destruct i; discriminate.
  - intros (g & <- & <-). destruct g; reflexivity.
Qed.
Lemma C52_form g : formula (gasSpMapES g) = (Z.to_nat (atomsC g), Z.to_nat (atomsH g), Z.to_nat (atomsO g)).
Proof. destruct g; reflexivity. Qed.
Lemma C52_bio b : bioMapIS (bioIdx b) = Some b /\ (bioMapSE (bioMapES b) = Some b <-> b <> sw_hc).
Proof. destruct b; cbn; split; try reflexivity; split; congruence. Qed.
Lemma C52_bio_bad : exists b, bioMapSE (bioMapES b) = None /\ forall s, bioMapSE s = Some b -> bioMapES b <> s.
Proof. exists sw_hc. split; [reflexivity|]. intros s H <-. discriminate. Qed.
Lemma C52_bio_onto s b : bioMapSE s = Some b -> b <> sw_hc -> bioMapES b = s.
Proof.
  unfold bioMapSE. repeat match goal with |- context[(s =? ?q)%string] => destruct (String.eqb_spec s q) end;
      intros H; inversion H; subst; try reflexivity; congruence.
Qed.
Lemma C52_bio_good b s : b <> sw_hc ->
  (bioMapSE s = Some b <-> bioMapES b = s) /\ bioMapIS (bioIdx b) = Some b.
Proof.
  intros H. destruct (C52_bio b) as [E1 E2]. split; [|exact E1]. split.
  - intros E. now apply C52_bio_onto.
  - intros <-. now apply E2.
Qed.
