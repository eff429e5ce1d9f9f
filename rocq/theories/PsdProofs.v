(** Lemmas shared by the particle-size models: mechanism rates and gas sources. *)
From Coq Require Import ZArith List Bool Reals Lra Lia.
From Verif Require Import Num Defs State Coag Nucl Growth Oxid Tar SootModel XR XRLemmas NumLaws SpecChem SpecCoag SpecValid SpecRates SpecGas SpecPsd
  CoagProofs StateXR ValidProofs InterpProofs GasProofs RateProofs.
Import ListNotations.
Local Open Scope R_scope.

(** ** kernels *)
Lemma kernel_val s g soot k a b : valid s g soot -> mC k <> C_size -> 0 < mF k ->
  coagRate (with_f (mC k) (mF k)) s (Fin a) (Fin b) = Fin (kernel k g a b).
Proof.
  intros V NS Pf. unfold kernel.
  destruct (Rlt_dec massCutoff a) as [A|A]; [destruct (Rlt_dec massCutoff b) as [B|B]|].
  - rewrite (kernels s _ _ _ _ (v_gas _ _ _ V) (with_f (mC k) (mF k)) (mF k)) by auto.
    unfold with_f, set_FM_multiplier, newCoag; cbn [co_class]. destruct (mC k); auto.
  - apply C13_zero. right; lra.
  - apply C13_zero. left; lra.
Qed.

Lemma kernel_nneg s g soot k a b : valid s g soot -> 0 < mF k -> 0 <= kernel k g a b.
Proof.
  intros V Pf. unfold kernel. destruct (Rlt_dec massCutoff a); [|lra]. destruct (Rlt_dec massCutoff b); [|lra].
  destruct (mC k) eqn:E; try lra;
  match goal with |- _ <= ?x => enough (exists v, coagRate (with_f (mC k) (mF k)) s (Fin a) (Fin b) = Fin v /\ 0 < v) as (v & Ev & Pv) end;
  try (eapply (C13_pos s _ _ _ _ (v_gas _ _ _ V) (with_f (mC k) (mF k)) (mF k)); auto; rewrite E; cbn; auto 10);
  rewrite (kernels s _ _ _ _ (v_gas _ _ _ V) (with_f (mC k) (mF k)) (mF k)) in Ev by auto;
  unfold with_f, set_FM_multiplier, newCoag in Ev; cbn [co_class] in Ev; rewrite E in Ev; injection Ev as ->; lra.
Qed.
Lemma kernel_pos s g soot k a b : valid s g soot -> 0 < mF k -> mC k <> C_NONE -> mC k <> C_size ->
  massCutoff < a -> massCutoff < b -> 0 < kernel k g a b.
Proof.
  intros V Pf N1 N2 Ha Hb.
  assert (exists v, coagRate (with_f (mC k) (mF k)) s (Fin a) (Fin b) = Fin v /\ 0 < v) as (v & Ev & Pv).
  { eapply (C13_pos s _ _ _ _ (v_gas _ _ _ V) (with_f (mC k) (mF k)) (mF k)); auto. cbn. destruct (mC k); auto; congruence. }
  rewrite (kernel_val s g soot) in Ev by auto. injection Ev as ->. exact Pv.
Qed.
Lemma kernel_sym s g soot k a b : valid s g soot -> mC k <> C_size -> 0 < mF k -> kernel k g a b = kernel k g b a.
Proof.
  intros V NS Pf. pose proof (kernel_val s g soot k a b V NS Pf) as E1. pose proof (kernel_val s g soot k b a V NS Pf) as E2.
  rewrite (coag_sym (N:=XR) XR_add_comm XR_mul_comm) in E1. rewrite E2 in E1. injection E1 as E. symmetry; exact E.
Qed.

(** ** mechanism rates *)
Lemma storeNucl_same (m : model (N:=XR)) : storeNucl m (sm_nucl m) None = m.
Proof. destruct m as [? ? ? ? ? ? ? ? ? ? ? p]; destruct p; reflexivity. Qed.

Lemma ok_any k : okMechs k -> okAny k. Proof. intros (_ & H); exact H. Qed.
Lemma runNucl_any coll (m : model (N:=XR)) s J : nuclRate coll (sm_nucl m) s = Ok (J, sm_nucl m, s, None) -> runNucl coll m s = Ok (J, m, s).
Proof. intros E. unfold runNucl. rewrite E. cbn [bind]. rewrite storeNucl_same. reflexivity. Qed.
Lemma runNucl_val coll m s g soot k : valid s g soot -> hasMechs m k -> okMechs k ->
  runNucl coll m s = Ok (Fin (Jnuc k g), m, s).
Proof.
  intros V (HN & _) (OG & _). unfold runNucl. rewrite (nucl_formula s g soot V); [|rewrite HN; exact OG].
  cbn [bind]. rewrite storeNucl_same. rewrite HN. reflexivity.
Qed.
Lemma grow_val m s g soot k M0 M1 : valid s g soot -> hasGOC m k ->
  seesMoments (viewOf m) soot M0 M1 -> regular k g M0 M1 -> growRate (sm_grow m) (viewOf m) s = Ok (Fin (kgrow k g M0 M1)).
Proof.
  intros V (HG & _) SM RG. rewrite (grow_formula s g soot V _ _ M0 M1 SM); rewrite HG; auto.
Qed.
Lemma oxid_val m s g soot k M0 M1 : valid s g soot -> hasGOC m k ->
  seesMoments (viewOf m) soot M0 M1 -> regular k g M0 M1 -> oxidRate (sm_oxid m) (viewOf m) s = Ok (Fin (koxid k g M0 M1)).
Proof.
  intros V (_ & HO & _) SM RG. rewrite (oxid_formula s g soot V _ _ M0 M1 SM); rewrite HO; auto.
Qed.
Lemma chem_any coll m s g soot k M0 M1 J : valid s g soot -> hasGOC m k -> runNucl coll m s = Ok (J, m, s) ->
  seesMoments (viewOf m) soot M0 M1 -> regular k g M0 M1 ->
  chemRates coll m s = Ok (J, Fin (kgrow k g M0 M1), Fin (koxid k g M0 M1), m, s).
Proof.
  intros V HM EJ SM RG. unfold chemRates. rewrite EJ. cbn [bind].
  rewrite (grow_val _ _ _ _ _ _ _ V HM SM RG). cbn [bind].
  rewrite (oxid_val _ _ _ _ _ _ _ V HM SM RG). reflexivity.
Qed.
Lemma chem_val coll m s g soot k M0 M1 : valid s g soot -> hasMechs m k -> okMechs k ->
  seesMoments (viewOf m) soot M0 M1 -> regular k g M0 M1 ->
  chemRates coll m s = Ok (Fin (Jnuc k g), Fin (kgrow k g M0 M1), Fin (koxid k g M0 M1), m, s).
Proof.
  intros V HM OM SM RG. unfold chemRates. rewrite (runNucl_val _ _ _ _ _ _ V HM OM). cbn [bind].
  rewrite (grow_val _ _ _ _ _ _ _ V (proj2 HM) SM RG). cbn [bind].
  rewrite (oxid_val _ _ _ _ _ _ _ V (proj2 HM) SM RG). reflexivity.
Qed.

(** ** switches *)
Section Switch.
Context (m : model (N:=XR)) (k : mechs) (HM : hasMechs m k).
Lemma isPAH_no : okAny k -> isPAH m = false.
Proof. destruct HM as (HN & _). intros (A & _). unfold isPAH. rewrite HN. cbn [newNucl nu_mech]. destruct (mN k); congruence. Qed.
Lemma nucl_off : nuclOn m = false -> forall g, Jnuc k g = 0.
Proof. destruct HM as (HN & _). unfold nuclOn, Jnuc. rewrite HN. cbn [newNucl nu_mech]. destruct (mN k); try discriminate. reflexivity. Qed.
Lemma grow_off : growOn m = false -> forall g M0 M1, kgrow k g M0 M1 = 0.
Proof. destruct HM as (_ & HG & _). unfold growOn, kgrow. rewrite HG. cbn [newGrow gr_mech]. destruct (mG k); try discriminate. reflexivity. Qed.
Lemma oxid_off : oxidOn m = false -> forall g M0 M1, koxid k g M0 M1 = 0.
Proof. destruct HM as (_ & _ & HG & _). unfold oxidOn, koxid. rewrite HG. cbn [newOxid ox_mech]. destruct (mO k); try discriminate. reflexivity. Qed.
Lemma coag_off : coagOn m = false -> forall g a b, kernel k g a b = 0.
Proof.
  destruct HM as (_ & _ & _ & HG). unfold coagOn, kernel. rewrite HG. cbn. intros H g a b.
  destruct (Rlt_dec massCutoff a); auto. destruct (Rlt_dec massCutoff b); auto. destruct (mC k); auto; discriminate.
Qed.
End Switch.

(** ** gas sources *)
Lemma total_add a b c : total (fun sp => a sp + b sp + c sp) = total a + total b + total c.
Proof. unfold total. ring. Qed.

Lemma gasSrc_val m k N1 G1 X1 : hasMechs m k -> okAny k ->
  holdsGas (gasSrc m (Fin N1) (Fin G1) (Fin X1)) (fun sp => nuclGas (mN k) N1 sp + growGas (mG k) G1 sp + oxidGas (mO k) (- X1) sp).
Proof.
  intros (HN & HG & HO & _) (OP & ON & OG & OO & _).
  destruct (nucl_each (mN k) N1 OP ON) as (La & Ha). destruct (grow_each (mG k) G1 OG) as (Lb & Hb). destruct (oxid_each (mO k) X1 OO) as (Lc & Hc).
  unfold gasSrc. rewrite HN, HG, HO. split; [rewrite map_length, seq_length; reflexivity|].
  intros sp. rewrite nth_error_seqmap by apply gasIdx_lt. f_equal.
  specialize (Ha sp). specialize (Hb sp). specialize (Hc sp).
  rewrite (nth_error_nth _ _ _ Ha), (nth_error_nth _ _ _ Hb), (nth_error_nth _ _ _ Hc). reflexivity.
Qed.

Lemma nuclGas_bal c x : c <> N_PAH -> c <> N_size -> (c = N_NONE -> x = 0) -> balanced (nuclGas c x) x.
Proof.
  intros A B Z. unfold balanced, nuclGas, viaAcetylene, reacts, total, element, total, molarMass, massC, massH, massO.
  destruct c; try congruence; try (rewrite Z by reflexivity); repeat split; cbn [atomsC atomsH atomsO]; field.
Qed.
Lemma growGas_bal c x : c <> G_size -> (c = G_NONE -> x = 0) -> balanced (growGas c x) x.
Proof.
  intros A Z. unfold balanced, growGas, viaAcetylene, reacts, total, element, total, molarMass, massC, massH, massO.
  destruct c; try congruence; try (rewrite Z by reflexivity); repeat split; cbn [atomsC atomsH atomsO]; field.
Qed.
Lemma oxidGas_bal c x : c <> O_size -> (c = O_NONE -> x = 0) -> balanced (oxidGas c x) (- x).
Proof.
  intros A Z. unfold balanced, oxidGas, reacts, total, element, total, molarMass, massC, massH, massO.
  destruct c; try congruence; try (rewrite Z by reflexivity); repeat split; cbn [atomsC atomsH atomsO]; field.
Qed.
Lemma element_add at_ a b c : element at_ (fun sp => a sp + b sp + c sp) = element at_ a + element at_ b + element at_ c.
Proof. unfold element, total, Rdiv. ring. Qed.
Lemma reactions_bal k N1 G X : okAny k -> (mN k = N_NONE -> N1 = 0) -> (mG k = G_NONE -> G = 0) -> (mO k = O_NONE -> X = 0) ->
  balanced (reactions k N1 G X) (N1 + G - X).
Proof.
  intros (OP & ON & OG & OO & _) ZN ZG ZO. unfold reactions.
  destruct (nuclGas_bal _ N1 OP ON ZN) as (A1 & A2 & A3 & A4 & A5). destruct (growGas_bal _ G OG ZG) as (B1 & B2 & B3 & B4 & B5).
  destruct (oxidGas_bal _ X OO ZO) as (C1 & C2 & C3 & C4 & C5). unfold balanced. rewrite total_add, !element_add.
  unfold Rdiv in *. repeat split; try lra.
Qed.

Lemma sees_moment m M0 M1 l : sm_psd m <> P_SECT -> seesMoments (viewOf m) (M0 :: M1 :: l) M0 M1.
Proof. intros H. left. auto. Qed.
