(** Lemmas for C82. *)
From Coq Require Import ZArith List Bool Reals Lra Lia.
From Verif Require Import Num Defs State Coag Nucl Growth Oxid SootModel Qmom Calls XR XRLemmas SpecChem SpecCoag SpecValid SpecRates SpecGas SpecState SpecPah SpecPsd SpecCont
  CoagProofs MiscProofs ValidProofs RateProofs PsdProofs PahProofs MonoProofs MonoMain MonoCases RichProofs HeatProofs.
Import ListNotations.
Local Open Scope R_scope.

(** ** sequences *)
Lemma cv_const c : Un_cv (fun _ => c) c.
Proof. intros e He. exists 0%nat. intros n _. unfold R_dist. rewrite Rminus_diag_eq, Rabs_R0; auto. Qed.
Lemma cv_app f u l : continuity_pt f l -> Un_cv u l -> Un_cv (fun n => f (u n)) (f l).
Proof. intros H K. exact (continuity_seq f u l H K). Qed.
Lemma cv_inv u l : l <> 0 -> Un_cv u l -> Un_cv (fun n => / u n) (/ l).
Proof. intros H. apply (cv_app Rinv). apply continuity_pt_inv; [|exact H]. apply derivable_continuous, derivable_id. Qed.
Lemma cv_div u v l k : k <> 0 -> Un_cv u l -> Un_cv v k -> Un_cv (fun n => u n / v n) (l / k).
Proof. intros H A B. apply CV_mult; [exact A|]. now apply cv_inv. Qed.
Lemma cv_exp u l : Un_cv u l -> Un_cv (fun n => exp (u n)) (exp l).
Proof. apply (cv_app exp). apply derivable_continuous_pt, derivable_pt_exp. Qed.
Lemma cv_sqrt u l : 0 <= l -> Un_cv u l -> Un_cv (fun n => sqrt (u n)) (sqrt l).
Proof. intros H. apply (cv_app sqrt). now apply continuity_pt_sqrt. Qed.
Lemma cv_pow u l k : Un_cv u l -> Un_cv (fun n => u n ^ k) (l ^ k).
Proof. apply (cv_app (fun x => x ^ k)). apply derivable_continuous_pt, derivable_pt_pow. Qed.
Lemma cv_ln u l : 0 < l -> Un_cv u l -> Un_cv (fun n => ln (u n)) (ln l).
Proof. intros H. apply (cv_app ln). apply derivable_continuous_pt. exists (/ l). now apply derivable_pt_lim_ln. Qed.
Lemma cv_rpow u l a : 0 < l -> Un_cv u l -> Un_cv (fun n => Rpower (u n) a) (Rpower l a).
Proof. intros H K. unfold Rpower. apply cv_exp, CV_mult; [apply cv_const|now apply cv_ln]. Qed.
Lemma cv_eventually u v l : (exists N, forall n, (N <= n)%nat -> u n = v n) -> Un_cv v l -> Un_cv u l.
Proof. intros (N & E) H e He. destruct (H e He) as (M & K). exists (max N M). intros n Hn. rewrite E by lia. apply K. lia. Qed.
Lemma cv_ext u v l k : (forall n, u n = v n) -> l = k -> Un_cv v k -> Un_cv u l.
Proof. intros E -> H. apply (cv_eventually u v); [exists 0%nat; auto|exact H]. Qed.
Lemma cv_above u l c : c < l -> Un_cv u l -> exists N, forall n, (N <= n)%nat -> c < u n.
Proof. intros H K. destruct (K (l - c) ltac:(lra)) as (N & E). exists N. intros n Hn. specialize (E n Hn). unfold R_dist in E. apply Rabs_def2 in E. lra. Qed.
Lemma cv_below u l c : l < c -> Un_cv u l -> exists N, forall n, (N <= n)%nat -> u n < c.
Proof. intros H K. destruct (K (c - l) ltac:(lra)) as (N & E). exists N. intros n Hn. specialize (E n Hn). unfold R_dist in E. apply Rabs_def2 in E. lra. Qed.
(** a power that vanishes at zero is continuous there too *)
Lemma cv_pow0 u l a : 0 < a -> 0 <= l -> Un_cv u l -> Un_cv (fun n => pow0 (u n) a) (pow0 l a).
Proof.
  intros A L K. unfold pow0. destruct (Rlt_dec 0 l) as [P|NP].
  - apply (cv_eventually _ (fun n => Rpower (u n) a)); [|now apply cv_rpow]. destruct (cv_above u l 0 P K) as (N & E). exists N. intros n Hn. specialize (E n Hn). destruct (Rlt_dec 0 (u n)); [reflexivity|lra].
  - assert (l = 0) by lra. subst l. intros e He. destruct (K (Rpower e (/ a)) ltac:(apply exp_pos)) as (N & E). exists N. intros n Hn. specialize (E n Hn). unfold R_dist in *. rewrite Rminus_0_r in *.
    destruct (Rlt_dec 0 (u n)) as [P|Q]; [|now rewrite Rabs_R0]. rewrite (Rabs_right (u n)) in E by lra. rewrite Rabs_right by (left; apply exp_pos).
    apply Rlt_le_trans with (Rpower (Rpower e (/ a)) a); [|rewrite Rpower_mult, Rinv_l, Rpower_1 by lra; lra]. unfold Rpower at 1 2. apply exp_increasing. apply Rmult_lt_compat_l; [exact A|]. now apply ln_increasing.
Qed.

Ltac cv1 := match goal with
  | H : Un_cv ?u ?l |- Un_cv ?v ?l => exact H
  | |- Un_cv (fun n => ?c) ?c => apply (cv_const c)
  | |- Un_cv (fun n => @?a n + @?b n) (?x + ?y) => apply (CV_plus a b x y)
  | |- Un_cv (fun n => @?a n - @?b n) (?x - ?y) => apply (CV_minus a b x y)
  | |- Un_cv (fun n => @?a n * @?b n) (?x * ?y) => apply (CV_mult a b x y)
  | |- Un_cv (fun n => @?a n / @?b n) (?x / ?y) => apply (cv_div a b x y)
  | |- Un_cv (fun n => - @?a n) (- ?x) => apply (CV_opp a x)
  | |- Un_cv (fun n => / @?a n) (/ ?x) => apply (cv_inv a x)
  | |- Un_cv (fun n => exp (@?a n)) (exp ?x) => apply (cv_exp a x)
  | |- Un_cv (fun n => sqrt (@?a n)) (sqrt ?x) => apply (cv_sqrt a x)
  | |- Un_cv (fun n => (@?a n) ^ ?k) (?x ^ ?k) => apply (cv_pow a x k)
  | |- Un_cv (fun n => Rpower (@?a n) ?k) (Rpower ?x ?k) => apply (cv_rpow a x k)
  | |- Un_cv (fun n => pow0 (@?a n) ?k) (pow0 ?x ?k) => apply (cv_pow0 a x k)
  end; cbv beta.
Ltac cvs := repeat cv1.

(** ** rates *)
Section Rates.
Context (G : nat -> gas) (g : gas) (HG : gasTo G g) (T0 : 0 < gT g) (C0 : 0 < gCMin g).
Lemma cT : Un_cv (fun n => gT (G n)) (gT g). Proof. apply HG. Qed.
Lemma cconc sp : Un_cv (fun n => conc (G n) sp) (conc g sp).
Proof. destruct HG as (_ & _ & A & _ & _ & B). unfold conc. specialize (B sp). pose proof (mm_pos sp). cvs. lra. Qed.
Lemma cpart sp : Un_cv (fun n => partialP (G n) sp) (partialP g sp).
Proof. pose proof cT as A. pose proof (cconc sp) as B. unfold partialP. cvs. Qed.
Lemma cnucl c : Un_cv (fun n => nuclFormula c (G n)) (nuclFormula c g).
Proof.
  pose proof cT as A. pose proof (cconc C2H2) as B. pose proof (cconc C6H6) as D. assert (E : Un_cv (fun n => gCMin (G n)) (gCMin g)) by apply HG.
  unfold nuclFormula, perParticle. destruct c; cvs; lra.
Qed.
Lemma coxid c M0 M1 (U0 U1 : nat -> R) : c <> O_HACA -> (forall sp, 0 <= partialP g sp) -> Un_cv (fun n => oxidFormula c (G n) (U0 n) (U1 n)) (oxidFormula c g M0 M1).
Proof.
  intros HC PP. pose proof cT as A. pose proof (cconc O2) as B. pose proof (cconc OH) as D. pose proof (cpart O2) as E. pose proof (cpart OH) as F.
  assert (RT : 0 < sqrt (gT g)) by now apply sqrt_lt_R0. pose proof avo_pos as P1. pose proof boltz_pos as P2. pose proof piC_pos as P3. pose proof (mm_pos OH) as P4.
  assert (P5 : 0 < avogadro * boltzmann * gT g) by (repeat apply Rmult_lt_0_compat; assumption).
  assert (P6 : 0 <= avogadro * boltzmann * gT g / (2 * piC * molarMass OH)) by (left; apply Rdiv_lt_0_compat; [exact P5|]; repeat apply Rmult_lt_0_compat; lra).
  assert (P7 : 0 < 2 * piC * molarMass OH) by (repeat apply Rmult_lt_0_compat; lra).
  destruct c; try contradiction; cbn [oxidFormula]; unfold hitsOH, atm; cvs; try lra.
  (* the Nagle-Strickland-Constable rate *)
  unfold nsc. specialize (PP O2).
  pose proof (exp_pos (-7650 / gT g)) as X1. pose proof (exp_pos (-48817 / gT g)) as X2. pose proof (exp_pos (2063 / gT g)) as X3.
  assert (0 <= partialP g O2 / 101325) by lra. set (p := partialP g O2 / 101325) in *.
  assert (0 <= exp (-7650 / gT g) * p) by (apply Rmult_le_pos; lra). assert (0 <= exp (2063 / gT g) * p) by (apply Rmult_le_pos; lra).
  unfold p in *. cvs; lra.
Qed.
(** growth times the surface *)
Definition grown (c : growthMech) (g : gas) (A : R) : R :=
  match c with
  | G_LL => 600 * exp (- 12100 / gT g) * conc g C2H2 * (2 * massC) * sqrt A
  | G_LIN => 750 * exp (- 12100 / gT g) * conc g C2H2 * (2 * massC) * A
  | G_FAIR => 500 * exp (- (24000 / (1987 / 1000)) / gT g) * conc g C2H2 * massC * A
  | G_MB => 430 * exp (- 12100 / gT g) * pow0 (conc g C2H2) (2 / 3) * A
  | _ => 0
  end.
Lemma cgrow c A (U : nat -> R) : 0 <= A -> (forall sp, 0 <= conc g sp) -> Un_cv U A -> Un_cv (fun n => grown c (G n) (U n)) (grown c g A).
Proof.
  intros PA PC H. pose proof cT as K. pose proof (cconc C2H2) as B. destruct c; cbn [grown]; cvs; try lra. apply PC.
Qed.
End Rates.

Lemma grown_val c g M0 M1 : c <> G_HACA -> 0 <= surface M0 M1 -> growFormula c g M0 M1 * surface M0 M1 = grown c g (surface M0 M1).
Proof.
  intros HC P. destruct c; try contradiction; cbn [growFormula grown]; try ring.
  - destruct (Rlt_dec 0 (surface M0 M1)) as [Q|Q]; [|replace (surface M0 M1) with 0 by lra; rewrite sqrt_0; ring].
    set (A := surface M0 M1) in *. pose proof (sqrt_lt_R0 A Q) as S0. pose proof (sqrt_sqrt A P) as S1. rewrite <- S1 at 2. field. lra.
  - unfold pow0. destruct (Rlt_dec 0 (surface M0 M1)) as [Q|Q]; [|replace (surface M0 M1) with 0 by lra; ring]. destruct (Rlt_dec 0 (conc g C2H2)); ring.
  - destruct (Rlt_dec 0 (surface M0 M1)) as [Q|Q]; [|replace (surface M0 M1) with 0 by lra]; ring.
Qed.
Lemma surface_nneg M0 M1 : 0 <= surface M0 M1.
Proof.
  unfold surface. destruct (Rlt_dec 0 M0); [|lra]. destruct (Rlt_dec 0 M1); [|lra]. pose proof piC_pos. pose proof (diam_pos (M1 / M0)). left. repeat apply Rmult_lt_0_compat; try lra.
Qed.
(** the surface as one power of the mean mass *)
Lemma surface_pow M0 M1 : 0 < M0 -> surface M0 M1 = M0 * (piC * pow0 (6 * (M1 / M0) / (piC * sootDensity)) (2 / 3)).
Proof.
  intros P. unfold surface, pow0. destruct (Rlt_dec 0 M0); [|lra]. pose proof piC_pos as PP. assert (PS : 0 < piC * sootDensity) by (unfold sootDensity; lra).
  destruct (Rlt_dec 0 M1) as [Q|Q].
  - assert (0 < M1 / M0) by now apply Rdiv_lt_0_compat. assert (X : 0 < 6 * (M1 / M0) / (piC * sootDensity)) by (apply Rdiv_lt_0_compat; lra). destruct (Rlt_dec 0 (6 * (M1 / M0) / (piC * sootDensity))); [|lra].
    unfold diam. rewrite <- (Rpower_pow 2) by apply exp_pos. rewrite Rpower_mult. replace (1 / 3 * INR 2) with (2 / 3) by (cbn [INR]; lra). reflexivity.
  - set (D := piC * sootDensity) in *. clearbody D. assert (M1 / M0 <= 0). { apply Rmult_le_reg_r with M0; [exact P|]. replace (M1 / M0 * M0) with M1 by (field; lra). lra. }
    assert (6 * (M1 / M0) / D <= 0). { apply Rmult_le_reg_r with D; [exact PS|]. replace (6 * (M1 / M0) / D * D) with (6 * (M1 / M0)) by (field; lra). lra. }
    destruct (Rlt_dec 0 (6 * (M1 / M0) / D)); [lra|]. ring.
Qed.
Lemma csurface (U0 U1 : nat -> R) M0 M1 : (forall n, 0 < U0 n) -> 0 < M0 -> 0 <= M1 -> Un_cv U0 M0 -> Un_cv U1 M1 -> Un_cv (fun n => surface (U0 n) (U1 n)) (surface M0 M1).
Proof.
  intros PU P0 P1 H0 H1. pose proof piC_pos as PP. assert (PS : 0 < piC * sootDensity) by (unfold sootDensity; lra).
  apply (cv_ext _ (fun n => U0 n * (piC * pow0 (6 * (U1 n / U0 n) / (piC * sootDensity)) (2 / 3))) _ (M0 * (piC * pow0 (6 * (M1 / M0) / (piC * sootDensity)) (2 / 3)))).
  - intros n. now apply surface_pow. - now apply surface_pow.
  - assert (0 <= M1 / M0) by (apply Rmult_le_pos; [exact P1|]; left; now apply Rinv_0_lt_compat). cvs; try lra. apply Rmult_le_pos; [lra|]. left. now apply Rinv_0_lt_compat.
Qed.
