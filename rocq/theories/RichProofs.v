(** C70: monotone rates. *)
From Coq Require Import ZArith List Bool Reals Lra Lia.
From Verif Require Import Num Defs State Coag Nucl Growth Oxid XR SpecChem SpecCoag SpecValid SpecRates SpecGas SpecPah SpecPsd SpecRich
  CoagProofs StateXR ValidProofs RateProofs.
Import ListNotations.
Local Open Scope R_scope.

(** radical sites: [u] made, [d] destroyed *)
Definition rad (u k d : R) : R := if Req_EM_T d 0 then 0 else u / d * k.
Lemma rad_nn u k d : 0 <= u -> 0 <= k -> 0 <= d -> 0 <= rad u k d.
Proof.
  intros. unfold rad. destruct (Req_EM_T d 0); [lra|]. apply Rmult_le_pos; [|assumption]. apply Rmult_le_pos; [assumption|]. apply Rlt_le, Rinv_0_lt_compat. lra.
Qed.
Lemma rad_up u k d x y : 0 <= u -> 0 <= k -> 0 <= d -> 0 <= x <= y -> x * rad u k (d + x) <= y * rad u k (d + y).
Proof.
  intros U K D (X & Y). unfold rad. destruct (Req_EM_T (d + x) 0) as [E|E].
  - rewrite Rmult_0_r. apply Rmult_le_pos; [lra|]. apply (rad_nn u k (d + y)); lra.
  - destruct (Req_EM_T (d + y) 0); [lra|]. assert (0 < d + x) by lra. assert (0 < d + y) by lra.
    assert (Q : x / (d + x) <= y / (d + y)).
    { apply Rmult_le_reg_r with ((d + x) * (d + y)); [now apply Rmult_lt_0_compat|].
      replace (x / (d + x) * ((d + x) * (d + y))) with (x * d + x * y) by (field; lra). replace (y / (d + y) * ((d + x) * (d + y))) with (y * d + x * y) by (field; lra).
      apply Rplus_le_compat_r. now apply Rmult_le_compat_r. }
    replace (x * (u / (d + x) * k)) with (u * k * (x / (d + x))) by (field; lra). replace (y * (u / (d + y) * k)) with (u * k * (y / (d + y))) by (field; lra).
    apply Rmult_le_compat_l; [now apply Rmult_le_pos|exact Q].
Qed.
Lemma rad_down u k d e x : 0 <= u -> 0 <= k -> 0 <= d <= e -> (d = 0 -> x = 0) -> 0 <= x -> x * rad u k e <= x * rad u k d.
Proof.
  intros U K (D & L) Z X. unfold rad. destruct (Req_EM_T d 0) as [E|E].
  - rewrite (Z E). lra.
  - destruct (Req_EM_T e 0); [lra|]. apply Rmult_le_compat_l; [assumption|]. apply Rmult_le_compat_r; [assumption|].
    unfold Rdiv. apply Rmult_le_compat_l; [assumption|]. apply Rinv_le_contravar; lra.
Qed.
Lemma rad_more u v k d : 0 <= k -> 0 <= d -> u <= v -> rad u k d <= rad v k d.
Proof.
  intros K D L. unfold rad. destruct (Req_EM_T d 0) as [E|E]; [lra|]. apply Rmult_le_compat_r; [assumption|]. unfold Rdiv. apply Rmult_le_compat_r; [|assumption]. apply Rlt_le, Rinv_0_lt_compat. lra.
Qed.
Lemma frac_le a b p q : 0 <= a -> 0 < b -> 0 <= p <= q -> p / (a * p + b) <= q / (a * q + b).
Proof.
  intros A B (P & L). assert (0 <= a * p) by now apply Rmult_le_pos. assert (0 <= a * q) by (apply Rmult_le_pos; lra).
  apply Rmult_le_reg_r with ((a * p + b) * (a * q + b)); [apply Rmult_lt_0_compat; lra|].
  replace (p / (a * p + b) * ((a * p + b) * (a * q + b))) with (a * p * q + p * b) by (field; lra).
  replace (q / (a * q + b) * ((a * p + b) * (a * q + b))) with (a * p * q + q * b) by (field; lra).
  apply Rplus_le_compat_l. apply Rmult_le_compat_r; lra.
Qed.
Lemma frac_nn a b p : 0 <= a -> 0 < b -> 0 <= p -> 0 <= p / (a * p + b).
Proof. intros. assert (0 <= a * p) by now apply Rmult_le_pos. apply Rmult_le_pos; [assumption|]. apply Rlt_le, Rinv_0_lt_compat. lra. Qed.
Lemma nsc_le t p q : 0 <= p <= q -> nsc t p <= nsc t q.
Proof.
  intros H. unfold nsc. set (kA := 20 * exp (- 15098 / t)). set (kB := 446 / 100000 * exp (- 7650 / t)). set (kT := 151000 * exp (- 48817 / t)). set (kZ := 213 / 10 * exp (2063 / t)).
  assert (0 < kA) by (unfold kA; apply Rmult_lt_0_compat; [lra|apply exp_pos]). assert (B : 0 < kB) by (unfold kB; apply Rmult_lt_0_compat; [lra|apply exp_pos]).
  assert (T : 0 < kT) by (unfold kT; apply Rmult_lt_0_compat; [lra|apply exp_pos]). assert (Z : 0 < kZ) by (unfold kZ; apply Rmult_lt_0_compat; [lra|apply exp_pos]).
  clearbody kA kB kT kZ. cbv zeta.
  assert (E : forall r, 0 <= r -> kA * r * (kB * r / (kB * r + kT) / (1 + kZ * r)) + kB * r * (1 - kB * r / (kB * r + kT)) = kA * kB * (r / (kB * r + kT) * (r / (kZ * r + 1))) + kB * kT * (r / (kB * r + kT))).
  { intros r R. assert (0 <= kB * r) by (apply Rmult_le_pos; lra). assert (0 <= kZ * r) by (apply Rmult_le_pos; lra). field. lra. }
  rewrite !E by lra. apply Rmult_le_compat_l; [unfold sootDensity; lra|].
  pose proof (frac_le kB kT p q ltac:(lra) T H) as F1. pose proof (frac_le kZ 1 p q ltac:(lra) ltac:(lra) H) as F2.
  pose proof (frac_nn kB kT p ltac:(lra) T ltac:(lra)) as N1. pose proof (frac_nn kZ 1 p ltac:(lra) ltac:(lra) ltac:(lra)) as N2.
  apply Rplus_le_compat.
  - apply Rmult_le_compat_l; [apply Rmult_le_pos; lra|]. now apply Rmult_le_compat.
  - apply Rmult_le_compat_l; [apply Rmult_le_pos; lra|exact F1].
Qed.

Definition gasSp_eq_dec (x y : gasSp) : {x = y} + {x <> y}. Proof. decide equality. Defined.

Section Two.
Context (s s' : state (N:=XR)) (g g' : gas) (soot soot' : list R) (V : valid s g soot) (V' : valid s' g' soot') (sp : gasSp) (RI : richer sp g g').
Let ET : gT g' = gT g. Proof. apply RI. Qed.
Let ER : gRho g' = gRho g. Proof. apply RI. Qed.
Let EC : gCMin g' = gCMin g. Proof. apply RI. Qed.
Lemma mm_pos x : 0 < molarMass x.
Proof. unfold molarMass, massC, massH, massO. destruct x; cbn [atomsC atomsH atomsO]; lra. Qed.
Lemma conc_le x : 0 <= conc g x <= conc g' x.
Proof.
  pose proof (mm_pos x) as M. assert (R0 : 0 < gRho g) by exact (v_rhopos _ _ _ V). assert (Y : 0 <= gY g x) by (destruct V as ((_ & _ & _ & _ & _ & Y & _) & _); apply Y).
  unfold conc. rewrite ER. split.
  - apply Rmult_le_pos; [apply Rmult_le_pos; lra|]. now apply Rlt_le, Rinv_0_lt_compat.
  - unfold Rdiv. apply Rmult_le_compat_r; [now apply Rlt_le, Rinv_0_lt_compat|]. apply Rmult_le_compat_l; [lra|].
    destruct RI as (_ & _ & _ & _ & _ & _ & A & B). destruct (gasSp_eq_dec x sp) as [->|K]; [exact A|]. rewrite (B x K). lra.
Qed.
Lemma conc_eq x : x <> sp -> conc g' x = conc g x.
Proof. intros K. unfold conc. rewrite ER. destruct RI as (_ & _ & _ & _ & _ & _ & _ & B). now rewrite (B x K). Qed.
Lemma press_le x : 0 <= partialP g x <= partialP g' x.
Proof.
  pose proof (conc_le x). pose proof (v_Tpos _ _ _ V). pose proof avo_pos. pose proof boltz_pos. unfold partialP. rewrite ET.
  assert (0 < avogadro * boltzmann * gT g) by (apply Rmult_lt_0_compat; [now apply Rmult_lt_0_compat|assumption]). split; [apply Rmult_le_pos; lra|apply Rmult_le_compat_r; lra].
Qed.
Lemma press_eq x : x <> sp -> partialP g' x = partialP g x.
Proof. intros K. unfold partialP. now rewrite ET, (conc_eq x K). Qed.

Lemma nucl_up c : nuclFormula c g <= nuclFormula c g'.
Proof.
  pose proof (conc_le C2H2) as (A & B). pose proof (conc_le C6H6) as (C & D). pose proof (v_cMinpos _ _ _ V). pose proof avo_pos.
  assert (PP : forall a, 0 <= a -> 0 <= perParticle g a) by (intros; unfold perParticle; apply Rmult_le_pos; [apply Rmult_le_pos; lra|now apply Rlt_le, Rinv_0_lt_compat]).
  assert (EP : forall a, perParticle g' a = perParticle g a) by (intros; unfold perParticle; now rewrite EC).
  unfold nuclFormula. rewrite ET, !EP. cbv zeta beta.
  destruct c; try lra; (apply Rmult_le_compat_r; [first [apply PP; lra|lra]|]); (apply Rmult_le_compat_l; [apply Rmult_le_pos; [lra|apply Rlt_le, exp_pos]|assumption]).
Qed.
Lemma hitsOH_le e : 0 <= e -> hitsOH g e <= hitsOH g' e.
Proof.
  intros E. pose proof (conc_le OH) as (A & B). unfold hitsOH. rewrite ET. apply Rmult_le_compat_r; [pose proof massC_pos; lra|].
  apply Rmult_le_compat_r; [apply sqrt_pos|]. now apply Rmult_le_compat_l.
Qed.
Lemma hitsOH_eq e : OH <> sp -> hitsOH g' e = hitsOH g e.
Proof. intros K. unfold hitsOH. now rewrite ET, (conc_eq OH K). Qed.

Definition rest (h : gas) : R := hacaDown h - haca4 h - haca5 h.
Definition site2 : R := 2 * (23 * 10 ^ 14).
Lemma radicals h : hacaRadicals h = rad (hacaUp h) site2 (rest h + haca5 h + haca4 h).
Proof. unfold hacaRadicals, rad, rest, site2. replace (hacaDown h - haca4 h - haca5 h + haca5 h + haca4 h) with (hacaDown h) by ring. reflexivity. Qed.
Lemma rest_nn s0 h so : valid s0 h so -> 0 <= rest h.
Proof.
  intros W. unfold rest, hacaDown. assert (Q : forall x, 0 <= conc h x).
  { intros x. pose proof (mm_pos x). pose proof (v_rhopos _ _ _ W). destruct W as ((_ & _ & _ & _ & _ & Y & _) & _). unfold conc. apply Rmult_le_pos; [apply Rmult_le_pos; [lra|apply Y]|now apply Rlt_le, Rinv_0_lt_compat]. }
  assert (P : forall a n e x, 0 <= a -> 0 <= a * Rpower (gT h) n * exp e * (conc h x / 1000)).
  { intros a n e x Ha. apply Rmult_le_pos; [|pose proof (Q x); lra]. apply Rmult_le_pos; [|apply Rlt_le, exp_pos]. apply Rmult_le_pos; [assumption|]. unfold Rpower. apply Rlt_le, exp_pos. }
  pose proof (P (39 * 10 ^ 11) 0 (- (11) / (19872036 / 10000000000 * gT h)) H2 ltac:(lra)).
  pose proof (P (368 * 10 ^ 6) (1139 / 1000) (- (171 / 10) / (19872036 / 10000000000 * gT h)) H2O ltac:(lra)). pose proof (Q H_). lra.
Qed.
Lemma rest_eq : (forall x, x = H2 \/ x = H2O \/ x = H_ -> x <> sp) -> rest g' = rest g.
Proof. intros K. unfold rest, hacaDown. rewrite ET, !conc_eq by auto. ring. Qed.
Lemma haca4_eq : C2H2 <> sp -> haca4 g' = haca4 g. Proof. intros K. unfold haca4. now rewrite ET, conc_eq by auto. Qed.
Lemma haca5_eq : O2 <> sp -> haca5 g' = haca5 g. Proof. intros K. unfold haca5. now rewrite ET, conc_eq by auto. Qed.
Lemma pre_nn a n e t : 0 <= a -> 0 <= a * Rpower t n * exp e.
Proof. intros. apply Rmult_le_pos; [|apply Rlt_le, exp_pos]. apply Rmult_le_pos; [assumption|]. unfold Rpower. apply Rlt_le, exp_pos. Qed.
Lemma haca4_le : 0 <= haca4 g <= haca4 g'.
Proof. pose proof (conc_le C2H2). unfold haca4. rewrite ET. split; [apply Rmult_le_pos; [apply pre_nn; lra|lra]|apply Rmult_le_compat_l; [apply pre_nn; lra|lra]]. Qed.
Lemma haca5_le : 0 <= haca5 g <= haca5 g'.
Proof. pose proof (conc_le O2). unfold haca5. rewrite ET. split; [apply Rmult_le_pos; [apply pre_nn; lra|lra]|apply Rmult_le_compat_l; [apply pre_nn; lra|lra]]. Qed.
Lemma up_le : 0 <= hacaUp g <= hacaUp g'.
Proof.
  pose proof (conc_le OH). pose proof (conc_le H_). unfold hacaUp. rewrite ET. split.
  - apply Rplus_le_le_0_compat; (apply Rmult_le_pos; [apply pre_nn; lra|lra]).
  - apply Rplus_le_compat; (apply Rmult_le_compat_l; [apply pre_nn; lra|lra]).
Qed.
Lemma up_eq : OH <> sp -> H_ <> sp -> hacaUp g' = hacaUp g.
Proof. intros A B. unfold hacaUp. now rewrite ET, !conc_eq by auto. Qed.
Lemma sites_eq M0 M1 : activeSites g' M0 M1 = activeSites g M0 M1.
Proof. unfold activeSites, hacaA, hacaB. now rewrite ET. Qed.
Lemma site2_nn : 0 <= site2. Proof. unfold site2. lra. Qed.

(** growth *)
Lemma grow_simple c M0 M1 : c <> G_HACA -> growFormula c g M0 M1 <= growFormula c g' M0 M1.
Proof.
  intros NH. pose proof (conc_le C2H2) as (A & B). pose proof massC_pos. pose proof (exp_pos (- 12100 / gT g)). pose proof (exp_pos (- (24000 / (1987 / 1000)) / gT g)).
  unfold growFormula. rewrite ET. destruct c; try congruence; try lra.
  - destruct (Rlt_dec 0 (surface M0 M1)); [|lra]. apply Rmult_le_compat_r; [lra|]. unfold Rdiv at 1 3. apply Rmult_le_compat_r; [apply Rlt_le, Rinv_0_lt_compat; now apply sqrt_lt_R0|].
    apply Rmult_le_compat_l; lra.
  - apply Rmult_le_compat_r; [lra|]. apply Rmult_le_compat_l; lra.
  - destruct (Rlt_dec 0 (surface M0 M1)); [|lra]. destruct (Rlt_dec 0 (conc g C2H2)) as [P|P].
    + destruct (Rlt_dec 0 (conc g' C2H2)); [|lra]. apply Rmult_le_compat_l; [lra|]. apply Rle_Rpower_l; lra.
    + destruct (Rlt_dec 0 (conc g' C2H2)); [|lra]. apply Rmult_le_pos; [lra|]. unfold Rpower. apply Rlt_le, exp_pos.
  - destruct (Rlt_dec 0 (surface M0 M1)); [|lra]. apply Rmult_le_compat_r; [lra|]. apply Rmult_le_compat_l; lra.
Qed.
Lemma grow_same c M0 M1 : c <> G_HACA -> C2H2 <> sp -> growFormula c g' M0 M1 = growFormula c g M0 M1.
Proof. intros NH K. unfold growFormula. rewrite ET, (conc_eq C2H2 K). destruct c; congruence. Qed.
Lemma haca_mono a b M0 M1 : a <= b -> hacaMass (a * activeSites g M0 M1) <= hacaMass (b * activeSites g' M0 M1).
Proof. intros L. rewrite sites_eq. apply hacaMass_le. apply Rmult_le_compat_r; [apply active_bounds|exact L]. Qed.
Lemma haca_mono' a b M0 M1 : a <= b -> hacaMass (a * activeSites g' M0 M1) <= hacaMass (b * activeSites g M0 M1).
Proof. intros L. rewrite sites_eq. apply hacaMass_le. apply Rmult_le_compat_r; [apply active_bounds|exact L]. Qed.

Lemma grow_fuel c M0 M1 : sp = C2H2 \/ sp = C6H6 -> growFormula c g M0 M1 <= growFormula c g' M0 M1.
Proof.
  intros F. destruct (Bool.bool_dec (match c with G_HACA => true | _ => false end) true) as [Q|Q]; [|apply grow_simple; intros ->; now apply Q].
  destruct c; try discriminate Q. cbn [growFormula]. apply haca_mono. rewrite !radicals.
  rewrite rest_eq by (intros x Hx; destruct F, Hx as [|[|]]; congruence). rewrite haca5_eq by (destruct F; congruence). rewrite up_eq by (destruct F; congruence).
  apply rad_up; try apply up_le; try apply site2_nn; try apply haca4_le. pose proof (rest_nn _ _ _ V). pose proof haca5_le. lra.
Qed.
Lemma grow_o2 c M0 M1 : sp = O2 -> growFormula c g' M0 M1 <= growFormula c g M0 M1.
Proof.
  intros F. destruct (Bool.bool_dec (match c with G_HACA => true | _ => false end) true) as [Q|Q]; [|rewrite grow_same; [lra|intros ->; now apply Q|congruence]].
  destruct c; try discriminate Q. cbn [growFormula]. apply haca_mono'. rewrite !radicals.
  rewrite rest_eq by (intros x Hx; destruct Hx as [|[|]]; congruence). rewrite haca4_eq by congruence. rewrite up_eq by congruence.
  pose proof (rest_nn _ _ _ V). pose proof haca5_le. pose proof haca4_le.
  apply rad_down; try apply up_le; try apply site2_nn; lra.
Qed.

(** oxidation *)
Ltac nn := match goal with
  | |- 0 <= _ * _ => apply Rmult_le_pos; nn
  | |- 0 <= _ / _ => unfold Rdiv; apply Rmult_le_pos; nn
  | |- 0 <= _ + _ => apply Rplus_le_le_0_compat; nn
  | |- 0 <= / _ => apply Rlt_le, Rinv_0_lt_compat; lra
  | |- 0 <= sqrt _ => apply sqrt_pos
  | |- 0 <= exp _ => apply Rlt_le, exp_pos
  | _ => lra end.
Ltac mono := match goal with
  | |- ?a <= ?a => apply Rle_refl
  | |- ?a * ?c <= ?b * ?c => apply Rmult_le_compat_r; [nn|mono]
  | |- ?a / ?c <= ?b / ?c => unfold Rdiv; apply Rmult_le_compat_r; [nn|mono]
  | |- ?c * ?a <= ?c * ?b => apply Rmult_le_compat_l; [nn|mono]
  | |- ?a + ?b <= ?c + ?d => apply Rplus_le_compat; mono
  | |- hitsOH g _ <= _ => apply hitsOH_le; lra
  | |- nsc _ _ <= _ => apply nsc_le
  | |- _ => first [assumption|idtac] end.
Lemma oxid_o2 c M0 M1 : sp = O2 \/ sp = OH -> oxidFormula c g M0 M1 <= oxidFormula c g' M0 M1.
Proof.
  intros F. pose proof (conc_le O2) as (A & B). pose proof (conc_le OH) as (A' & B'). pose proof (press_le O2) as (C & D). pose proof (press_le OH) as (C' & D').
  pose proof massC_pos. pose proof (sqrt_lt_R0 _ (v_Tpos _ _ _ V)) as PS. assert (D1 : atm (partialP g O2) <= atm (partialP g' O2)) by (unfold atm; lra). assert (D2 : atm (partialP g OH) <= atm (partialP g' OH)) by (unfold atm; lra).
  assert (D0 : 0 <= atm (partialP g O2)) by (unfold atm; lra).
  unfold oxidFormula. rewrite ET. cbv zeta. destruct c; try lra; try (mono; fail); mono.
  - split; assumption.
  - apply haca_mono. rewrite !radicals.
    rewrite rest_eq by (intros x Hx; destruct F, Hx as [|[|]]; congruence). rewrite haca4_eq by (destruct F; congruence).
    pose proof (rest_nn _ _ _ V). pose proof haca5_le. pose proof haca4_le. pose proof up_le. pose proof site2_nn. destruct F as [F|F].
    + rewrite up_eq by congruence. replace (rest g + haca5 g + haca4 g) with (rest g + haca4 g + haca5 g) by ring. replace (rest g + haca5 g' + haca4 g) with (rest g + haca4 g + haca5 g') by ring.
      apply rad_up; lra.
    + rewrite haca5_eq by congruence. apply Rmult_le_compat_l; [lra|]. apply rad_more; lra.
Qed.
Lemma oxid_fuel c M0 M1 : sp = C2H2 \/ sp = C6H6 -> oxidFormula c g' M0 M1 <= oxidFormula c g M0 M1.
Proof.
  intros F. assert (E : forall x, x = O2 \/ x = OH -> x <> sp) by (intros x Hx; destruct F, Hx; congruence).
  destruct (Bool.bool_dec (match c with O_HACA => true | _ => false end) true) as [Q|Q].
  - destruct c; try discriminate Q. cbn [oxidFormula]. rewrite hitsOH_eq by (apply E; auto). apply Rplus_le_compat_r. apply haca_mono'. rewrite !radicals.
    rewrite rest_eq by (intros x Hx; destruct F, Hx as [|[|]]; congruence). rewrite haca5_eq by (destruct F; congruence). rewrite up_eq by (destruct F; congruence).
    pose proof (rest_nn _ _ _ V). pose proof haca5_le. pose proof haca4_le. pose proof up_le. pose proof site2_nn. apply rad_down; lra.
  - apply Req_le. unfold oxidFormula. rewrite ET, !conc_eq, !press_eq, !hitsOH_eq by (apply E; auto). destruct c; try reflexivity. now exfalso.
Qed.
End Two.
