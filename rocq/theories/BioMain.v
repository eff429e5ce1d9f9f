(** C62: tar yield and molar mass from the composition of the fuel. *)
From Coq Require Import ZArith List Bool Reals Lra Lia.
From Verif Require Import Num Defs State Nucl XR XRLemmas SpecBio StateProofs Coag Growth Oxid Tar SootModel Mono Calls HmomProofs FrameMain ConfigProofs.
Import ListNotations.
Local Open Scope R_scope.

(** at least five mass fractions are needed *)
Lemma bio_short (N : Num) (s : state (N:=N)) : (length (yBio s) < 5)%nat -> get_mtar_ytar s = UB OutOfBounds.
Proof.
  intros H. unfold get_mtar_ytar. cbv zeta. destruct (yBio s) as [|a [|b [|c [|d [|e l]]]]]; cbn [length] in H; try lia; cbn [vget nth_error bind]; reflexivity.
Qed.
Lemma bio_frame (N : Num) (s s' : state (N:=N)) : get_mtar_ytar s = Ok s' -> s' = with_my s (mtar s') (ytar s').
Proof.
  unfold get_mtar_ytar. cbv zeta. destruct (yBio s) as [|a [|b [|c [|d [|e l]]]]]; cbn [vget nth_error bind]; try discriminate.
  set (m := nadd _ _). set (y := nadd _ _). intros H. injection H as <-. reflexivity.
Qed.
Lemma bio_depends (N : Num) (s1 s2 s1' s2' : state (N:=N)) : T s1 = T s2 -> P s1 = P s2 -> yBio s1 = yBio s2 ->
  get_mtar_ytar s1 = Ok s1' -> get_mtar_ytar s2 = Ok s2' -> mtar s1' = mtar s2' /\ ytar s1' = ytar s2'.
Proof.
  intros ET EP EB. unfold get_mtar_ytar. cbv zeta. rewrite ET, EP, EB. destruct (yBio s2) as [|a [|b [|c [|d [|e l]]]]]; cbn [vget nth_error bind]; try discriminate.
  set (m := nadd _ _). set (y := nadd _ _). intros H1 H2. injection H1 as <-. injection H2 as <-. split; reflexivity.
Qed.
Ltac decs := unfold poly, cpoly, yieldNum, yieldDen, massNum, massDen, coalYieldNum, coalYieldDen, coalMassNum, coalMassDen, m2, m5; cbn [fold_right pow].
Ltac negz := repeat match goal with |- context [IZR (Zneg ?p)] => change (IZR (Zneg p)) with (- IZR (Zpos p)) end.
Ltac pows := unfold Q2R; cbn [QArith_base.Qnum QArith_base.Qden].
Ltac same := decs; pows; negz; field.
Ltac xs := match goal with
  | |- context [xadd (Fin ?a) (Fin ?b)] => change (xadd (Fin a) (Fin b)) with (Fin (a + b))
  | |- context [xsub (Fin ?a) (Fin ?b)] => change (xsub (Fin a) (Fin b)) with (Fin (a - b))
  | |- context [xmul (Fin ?a) (Fin ?b)] => change (xmul (Fin a) (Fin b)) with (Fin (a * b))
  | |- context [xopp (Fin ?a)] => change (xopp (Fin a)) with (Fin (- a))
  | |- context [rlit ?z 0] => change (rlit z 0) with (IZR z)
  | |- context [rlit ?z (Zneg ?p)] => let v := eval vm_compute in (Z.pow_pos 10 p) in change (rlit z (Zneg p)) with (IZR z / IZR v)
  | |- context [rlit ?z (Zpos ?p)] => let v := eval vm_compute in (z * Z.pow_pos 10 p)%Z in change (rlit z (Zpos p)) with (IZR v)
  end.
Lemma ratio a b n d : d <> 0 -> a = n -> b = d -> xdiv (Fin a) (Fin b) = Fin (n / d).
Proof. intros H -> ->. now apply xdiv_fin. Qed.
Ltac rat a b n d H := match type of H with poly _ ?t ?x <> 0 => let E := fresh in assert (E : xdiv (Fin a) (Fin b) = Fin (poly n t x / poly d t x)) by (apply ratio; [exact H|same|same]); rewrite E; clear E end.
Lemma bio_val (s : state (N:=XR)) t p y : T s = Fin t -> P s = Fin p -> 0 < p -> yBio s = map (fun b => Fin (y b)) allBio -> noPole t (atmLog p) ->
  get_mtar_ytar s = Ok (with_my s (Fin (bioMean (fun b => tarMass b t (atmLog p)) y)) (Fin (bioMean (fun b => yield b t (atmLog p)) y))).
Proof.
  intros ET EP Hp EB HD. unfold get_mtar_ytar. cbv zeta. rewrite ET, EP, EB. cbn [map allBio vget nth_error bind].
  xcbn. repeat xs. rewrite (xdiv_fin p 101325) by lra. rewrite xlog10_fin by (apply Rdiv_lt_0_compat; lra). change (ln (p / 101325) / ln 10) with (atmLog p).
  generalize dependent (atmLog p). intros x HD. repeat xs.
  pose proof (HD Cellulose) as (Y1 & M1). pose proof (HD HwHemi) as (Y2 & M2). pose proof (HD SwHemi) as (Y3 & M3). pose proof (HD HwLignin) as (Y4 & M4). pose proof (HD SwLignin) as (Y5 & M5). clear HD.
  repeat match goal with |- context [xdiv (Fin ?a) (Fin ?b)] =>
    first [rat a b (yieldNum Cellulose) (yieldDen Cellulose) Y1 | rat a b (yieldNum HwHemi) (yieldDen HwHemi) Y2 | rat a b (yieldNum SwHemi) (yieldDen SwHemi) Y3
      | rat a b (yieldNum HwLignin) (yieldDen HwLignin) Y4 | rat a b (yieldNum SwLignin) (yieldDen SwLignin) Y5
      | rat a b (massNum Cellulose) (massDen Cellulose) M1 | rat a b (massNum HwHemi) (massDen HwHemi) M2 | rat a b (massNum SwHemi) (massDen SwHemi) M3
      | rat a b (massNum HwLignin) (massDen HwLignin) M4 | rat a b (massNum SwLignin) (massDen SwLignin) M5] end.
  repeat xs. apply f_equal. apply f_equal2; apply f_equal; unfold bioMean, tarMass, yield; cbn [fold_right allBio]; ring.
Qed.
Lemma coal_val (s : state (N:=XR)) t p o h v : T s = Fin t -> P s = Fin p -> 0 < p -> OC s = Fin o -> HC s = Fin h -> State.V s = Fin v ->
  let x := atmLog p in cpoly coalYieldDen t x o h v <> 0 -> cpoly coalMassDen t x o h v <> 0 ->
  get_mtar_ytar_coal s = with_my s (Fin (cpoly coalMassNum t x o h v / cpoly coalMassDen t x o h v)) (Fin (cpoly coalYieldNum t x o h v / cpoly coalYieldDen t x o h v)).
Proof.
  intros ET EP Hp EO EH EV x Hy Hm. unfold get_mtar_ytar_coal. cbv zeta. rewrite ET, EP, EO, EH, EV.
  xcbn. repeat xs. rewrite (xdiv_fin p 101325) by lra. rewrite xlog10_fin by (apply Rdiv_lt_0_compat; lra). change (ln (p / 101325) / ln 10) with (atmLog p). fold x.
  generalize dependent x. intros x Hy Hm. repeat xs.
  apply f_equal2; (apply ratio; [assumption|same|same]).
Qed.
Lemma atm_one : atmLog 101325 = 0.
Proof. unfold atmLog. replace (101325 / 101325) with 1 by field. rewrite ln_1. field. assert (0 < ln 10) by (rewrite <- ln_1; apply ln_increasing; lra). lra. Qed.
Ltac redp := decs; pows; negz; rewrite ?Rmult_0_l, ?Rmult_0_r, ?Rmult_1_r, ?Rplus_0_r.
Lemma yield_range b t : 600 <= t <= 2000 -> 0 < poly (yieldDen b) t 0 /\ 0 < poly (yieldNum b) t 0 < poly (yieldDen b) t 0.
Proof.
  intros H. assert (H2 : 0 <= (t - 600) * (2000 - t)) by (apply Rmult_le_pos; lra). assert (H3 : 0 <= (t - 600) * (t - 600)) by (apply Rle_0_sqr).
  assert (H4 : 0 <= t * ((t - 600) * (2000 - t))) by (apply Rmult_le_pos; lra). assert (H5 : 0 <= t * ((t - 600) * (t - 600))) by (apply Rmult_le_pos; lra).
  destruct b; redp; repeat split; nra.
Qed.
Lemma mass_range b t : 600 <= t <= 2000 -> 0 < poly (massDen b) t 0 /\ 200 * poly (massDen b) t 0 < poly (massNum b) t 0 < 500 * poly (massDen b) t 0.
Proof.
  intros H. assert (H2 : 0 <= (t - 600) * (2000 - t)) by (apply Rmult_le_pos; lra). assert (H3 : 0 <= (t - 600) * (t - 600)) by (apply Rle_0_sqr).
  assert (H4 : 0 <= t * ((t - 600) * (2000 - t))) by (apply Rmult_le_pos; lra). assert (H5 : 0 <= t * ((t - 600) * (t - 600))) by (apply Rmult_le_pos; lra).
  destruct b; redp; repeat split; nra.
Qed.
Lemma mean_bounds f y lo hi : (forall b, lo < f b < hi) -> (forall b, 0 <= y b) -> bioMean (fun _ => 1) y = 1 -> lo < bioMean f y < hi.
Proof.
  intros Hf Hy H1. unfold bioMean in *. cbn [fold_right allBio] in *.
  assert (K : forall b, y b * lo <= y b * f b <= y b * hi) by (intros b; specialize (Hf b); specialize (Hy b); split; apply Rmult_le_compat_l; lra).
  assert (K' : forall b, 0 < y b -> y b * lo < y b * f b < y b * hi) by (intros b Q; specialize (Hf b); split; apply Rmult_lt_compat_l; lra).
  assert (Q : 0 < y Cellulose \/ 0 < y HwHemi \/ 0 < y SwHemi \/ 0 < y HwLignin \/ 0 < y SwLignin).
  { pose proof (Hy Cellulose). pose proof (Hy HwHemi). pose proof (Hy SwHemi). pose proof (Hy HwLignin). pose proof (Hy SwLignin).
    destruct (Rle_lt_dec (y Cellulose) 0); [|tauto]. destruct (Rle_lt_dec (y HwHemi) 0); [|tauto]. destruct (Rle_lt_dec (y SwHemi) 0); [|tauto]. destruct (Rle_lt_dec (y HwLignin) 0); [|tauto]. destruct (Rle_lt_dec (y SwLignin) 0); [|tauto]. lra. }
  assert (L : lo = y Cellulose * lo + y HwHemi * lo + y SwHemi * lo + y HwLignin * lo + y SwLignin * lo) by (rewrite <- !Rmult_plus_distr_r; rewrite <- (Rmult_1_l lo) at 1; f_equal; lra).
  assert (U : hi = y Cellulose * hi + y HwHemi * hi + y SwHemi * hi + y HwLignin * hi + y SwLignin * hi) by (rewrite <- !Rmult_plus_distr_r; rewrite <- (Rmult_1_l hi) at 1; f_equal; lra).
  pose proof (K Cellulose). pose proof (K HwHemi). pose proof (K SwHemi). pose proof (K HwLignin). pose proof (K SwLignin).
  destruct Q as [Q|[Q|[Q|[Q|Q]]]]; apply K' in Q; lra.
Qed.
Lemma bio_range (s : state (N:=XR)) t y : T s = Fin t -> 600 <= t <= 2000 -> P s = Fin 101325 -> yBio s = map (fun b => Fin (y b)) allBio ->
  (forall b, 0 <= y b) -> bioMean (fun _ => 1) y = 1 ->
  exists m v, get_mtar_ytar s = Ok (with_my s (Fin m) (Fin v)) /\ 200 < m < 500 /\ 0 < v < 1.
Proof.
  intros ET Ht EP EB Hy H1. eexists. eexists. split.
  - apply (bio_val s t 101325 y ET EP ltac:(lra) EB). rewrite atm_one. intros b. pose proof (yield_range b t Ht). pose proof (mass_range b t Ht). split; lra.
  - rewrite atm_one. split; apply mean_bounds; auto; intros b; [pose proof (mass_range b t Ht) as (D & L & U)|pose proof (yield_range b t Ht) as (D & L & U)]; unfold tarMass, yield.
    + split; [apply Rmult_lt_reg_r with (1 := D)|apply Rmult_lt_reg_r with (1 := D)]; unfold Rdiv; rewrite Rmult_assoc, Rinv_l, Rmult_1_r by lra; assumption.
    + split; [apply Rmult_lt_reg_r with (1 := D)|apply Rmult_lt_reg_r with (1 := D)]; unfold Rdiv; rewrite Rmult_assoc, Rinv_l, Rmult_1_r by lra; rewrite ?Rmult_0_l, ?Rmult_1_l; assumption.
Qed.
Lemma atm_ten : atmLog 1013250 = 1.
Proof. unfold atmLog. replace (1013250 / 101325) with 10 by field. field. assert (0 < ln 10) by (rewrite <- ln_1; apply ln_increasing; lra). lra. Qed.
Lemma ten_pole t : 700 <= t <= 2000 -> noPole t 1.
Proof.
  intros H b. assert (H2 : 0 <= (t - 700) * (2000 - t)) by (apply Rmult_le_pos; lra).
  assert (H4 : 0 <= t * ((t - 700) * (2000 - t))) by (apply Rmult_le_pos; lra). assert (H5 : 0 <= (t - 1614) * (t - 1614) * (t + 3228)) by (apply Rmult_le_pos; [apply Rle_0_sqr|lra]).
  assert (H6 : 0 <= (t - 2626) * (t - 2626)) by (apply Rle_0_sqr).
  assert (K : forall x, 0 < x \/ x < 0 -> x <> 0) by (intros; lra).
  destruct b; redp; split; apply K; first [left; nra|right; nra].
Qed.
Lemma ten_mass t : 700 <= t <= 2000 -> tarMass SwHemi t 1 < 0.
Proof.
  intros H. unfold tarMass.
  assert (A : 0 < poly (massNum SwHemi) t 1) by (redp; nra). assert (B : poly (massDen SwHemi) t 1 < 0) by (redp; nra).
  unfold Rdiv. rewrite <- (Ropp_involutive (poly (massNum SwHemi) t 1 * / _)). apply Ropp_lt_gt_0_contravar. rewrite Ropp_mult_distr_r. rewrite <- Rinv_opp. apply Rmult_lt_0_compat; [exact A|]. apply Rinv_0_lt_compat. lra.
Qed.
(** hemicellulose of softwood at ten atmospheres *)
Lemma ten_atm (s : state (N:=XR)) t : T s = Fin t -> 700 <= t <= 2000 -> P s = Fin 1013250 -> yBio s = [Fin 0; Fin 0; Fin 1; Fin 0; Fin 0] ->
  exists m v, get_mtar_ytar s = Ok (with_my s (Fin m) (Fin v)) /\ m < 0.
Proof.
  intros ET Ht EP EB. pose (y := fun b => match b with SwHemi => 1 | _ => 0 end). eexists. eexists. split.
  - apply (bio_val s t 1013250 y ET EP ltac:(lra) EB). rewrite atm_ten. now apply ten_pole.
  - rewrite atm_ten. unfold bioMean. cbn [fold_right allBio y]. pose proof (ten_mass t Ht). lra.
Qed.
(** a negative molar mass makes the rate of AJ_RED nucleation not a number *)
Lemma nan_l x : xmul NaN x = NaN. Proof. destruct x; reflexivity. Qed.
Lemma nan_r x : xmul x NaN = NaN. Proof. destruct x; reflexivity. Qed.
Lemma nan_div x : xdiv NaN x = NaN. Proof. destruct x; reflexivity. Qed.
Lemma sqrt_neg m : m < 0 -> @nsqrt XR (@ndiv XR (@nmul XR (nZ 2) (Fin m)) (@nmul XR (nZ 3) (nlit 12011 (-3)))) = NaN.
Proof.
  intros Hm. xcbn. repeat xs. rewrite xdiv_fin by lra. unfold xsqrt. destruct (Rlt_dec _ _) as [_|H]; [reflexivity|]. exfalso. apply H. apply Rmult_lt_reg_r with (3 * (12011 / 1000)); [lra|].
  unfold Rdiv at 1. rewrite Rmult_assoc, Rinv_l by lra. lra.
Qed.
Lemma aj_nan (s : state (N:=XR)) m r : mtar s = Fin m -> m < 0 -> nuclAJ_RED s = Ok r -> r = NaN.
Proof.
  intros EM Hm H. unfold nuclAJ_RED in H. cbv zeta in H. destruct (vget (tarVar s) 0) as [t0| |]; cbn [bind] in H; try discriminate H.
  apply (f_equal (fun q => match q with Ok x => x | _ => NaN end)) in H. cbv beta iota in H. rewrite <- H. clear H.
  rewrite EM, (sqrt_neg m Hm). change (@nmul XR) with xmul. change (@ndiv XR) with xdiv. rewrite !nan_r, !nan_l, ?nan_r, ?nan_l, ?nan_div. reflexivity.
Qed.
(** and with it the particle source of the monodisperse model *)
Lemma add_nan_l x : xadd NaN x = NaN. Proof. destruct x; reflexivity. Qed.
Lemma sub_nan_l x : xsub NaN x = NaN. Proof. destruct x; reflexivity. Qed.
Lemma terms_nan M0 M1 (md : model (N:=XR)) s m : nu_class (sm_nucl md) = N_AJ_RED -> nu_mech (sm_nucl md) = N_AJ_RED -> mtar s = Fin m -> m < 0 ->
  post (monoTermsOf M0 M1 md s) (fun x => mt_N0 (fst (fst x)) = NaN /\ sm_tar (snd (fst x)) = sm_tar md).
Proof.
  intros EC EM ET Hm. unfold monoTermsOf. apply (post_bind _ _ (fun x => let '(j, _, _, m', _) := x in j = NaN /\ sm_nucl m' = sm_nucl md /\ sm_tar m' = sm_tar md)).
  - unfold chemRates, runNucl, nuclRate. rewrite EC. destruct (nuclAJ_RED s) as [r| |] eqn:E; cbn [bind post]; auto. apply post_any. intros kg. apply post_any. intros ko. cbn [post].
    split; [exact (aj_nan s m r ET Hm E)|]. unfold storeNucl. destruct md as [? ? ? ? ? ? ? ? ? ? ? pv]; destruct pv; split; reflexivity.
  - intros ((((j & kg) & ko) & m') & s') (EJ & EN & ETA). apply post_any. intros x0. apply post_any. intros c1. apply post_any. intros c0. cbn [post fst snd mt_N0].
    unfold nuclOn. rewrite EN, EM, EJ. auto.
Qed.
Lemma mono_nan n nt gr ox co ta F k (md : model (N:=XR)) g eig s m : constructEnum P_MONO n N_AJ_RED gr ox co nt ta F k = Ok md -> mtar s = Fin m -> m < 0 ->
  match setSourceTerms g eig md s with Ok (_, m', _) => exists l, sootSources (sm_sources m') = NaN :: l | _ => True end.
Proof.
  intros EC ET Hm. apply construct_ok in EC. destruct EC as ((_ & _ & _ & _ & HT) & _ & EMD).
  assert (EP : sm_psd md = P_MONO) by (rewrite EMD; reflexivity). assert (EN : sm_nucl md = newNucl N_AJ_RED) by (rewrite EMD; reflexivity). assert (ETA : sm_tar md = newTar ta) by (rewrite EMD; reflexivity).
  clear EMD.
  unfold setSourceTerms. rewrite EP.
  cut (post (setSourceTermsMONO md s) (fun x => exists l, sootSources (sm_sources (fst x)) = NaN :: l)).
  { destruct (setSourceTermsMONO md s) as [(m' & s')| |]; cbn [post bind fst]; auto. }
  unfold setSourceTermsMONO. apply post_any. intros M0. apply post_any. intros M1.
  apply (post_bind _ _ (fun s1 : state (N:=XR) => @mtar XR s1 = Fin m)).
  { unfold monoSetWA. change (@nltb XR) with xltb. destruct (xltb _ _); [|exact ET]. apply post_any. intros w. apply post_any. intros b. exact ET. }
  intros s1 E1. assert (K := terms_nan M0 M1 md s1 m ltac:(rewrite EN; reflexivity) ltac:(rewrite EN; reflexivity) E1 Hm).
  rewrite ETA. cbn [ta_mech newTar]. destruct ta; try congruence.
  - apply (post_bind _ _ _ _ K). intros ((t & m') & s') (EJ & _). cbn [fst] in EJ. cbn [post fst finish sm_sources with_sources sootSources]. rewrite EJ. change (@nadd XR) with xadd. rewrite !add_nan_l. eexists. reflexivity.
  - apply post_any. intros n0. apply (post_bind _ _ _ _ K). intros ((t & m') & s') (EJ & ET'). cbn [fst snd] in EJ, ET'. unfold monoTarTerms. rewrite ET', ETA. cbn [ta_mech newTar].
    apply (post_bind _ _ (fun x => snd (fst x) = NaN)).
    + apply post_any. intros a1. apply post_any. intros a2. apply post_any. intros a3. cbn [post fst snd]. rewrite EJ. change (@nadd XR) with xadd. rewrite !add_nan_l. reflexivity.
    + intros ((T0 & T1) & T2) Q. cbn [fst snd] in Q. apply post_any. intros ts. cbn [post fst finish sm_sources with_sources sootSources]. rewrite Q. eexists. reflexivity.
  - apply post_any. intros n0. apply (post_bind _ _ _ _ K). intros ((t & m') & s') (EJ & ET'). cbn [fst snd] in EJ, ET'. unfold monoTarTerms. rewrite ET', ETA. cbn [ta_mech newTar].
    apply (post_bind _ _ (fun x => snd (fst x) = NaN)).
    + apply post_any. intros a1. apply post_any. intros a2. cbn [post fst snd]. rewrite EJ. change (@nsub XR) with xsub. rewrite !sub_nan_l. reflexivity.
    + intros ((T0 & T1) & T2) Q. cbn [fst snd] in Q. apply post_any. intros ts. cbn [post fst finish sm_sources with_sources sootSources]. rewrite Q. eexists. reflexivity.
Qed.
Lemma bio_new (N : Num) n nt : get_mtar_ytar (newState (N:=N) n nt) = UB OutOfBounds.
Proof. apply bio_short. cbn. lia. Qed.
Definition bioState (t p : R) (y : list xr) : state (N:=XR) := with_yBio (with_P (with_T (newState 2 1) (Fin t)) (Fin p)) y.
Lemma neg_case : exists (s s' : state (N:=XR)) m, T s = Fin 1000 /\ P s = Fin 1013250 /\
  yBio s = [Fin 0; Fin 0; Fin 1; Fin 0; Fin 0] /\ get_mtar_ytar s = Ok s' /\ mtar s' = Fin m /\ m < 0.
Proof.
  pose (s := bioState 1000 1013250 [Fin 0; Fin 0; Fin 1; Fin 0; Fin 0]).
  destruct (ten_atm s 1000 eq_refl ltac:(lra) eq_refl eq_refl) as (m & v & E & H). exists s. eexists. exists m. split; [reflexivity|]. split; [reflexivity|]. split; [reflexivity|]. split; [exact E|]. split; [reflexivity|exact H].
Qed.
Lemma one_case : exists (s : state (N:=XR)) y, T s = Fin 1500 /\ P s = Fin 101325 /\ yBio s = map (fun b => Fin (y b)) allBio /\
  (forall b, 0 <= y b) /\ bioMean (fun _ => 1) y = 1 /\ noPole 1500 (atmLog 101325).
Proof.
  pose (y := fun b => match b with Cellulose => 12 / 100 | HwHemi => 1 / 10 | SwHemi => 6 / 10 | HwLignin => 9 / 100 | SwLignin => 9 / 100 end).
  exists (bioState 1500 101325 (map (fun b => Fin (y b)) allBio)), y. split; [reflexivity|]. split; [reflexivity|]. split; [reflexivity|]. split; [intros []; cbn [y]; lra|]. split; [unfold bioMean; cbn [fold_right allBio y]; lra|].
  rewrite atm_one. intros b. pose proof (yield_range b 1500 ltac:(lra)). pose proof (mass_range b 1500 ltac:(lra)). split; lra.
Qed.
Lemma coal_given (s : state (N:=XR)) t p o h v : T s = Fin t -> P s = Fin p -> 0 < p ->
  let x := atmLog p in cpoly coalYieldDen t x o h v <> 0 -> cpoly coalMassDen t x o h v <> 0 ->
  let s' := get_mtar_ytar_coal (get_coal s (Fin o) (Fin h) (Fin v)) in
  mtar s' = Fin (cpoly coalMassNum t x o h v / cpoly coalMassDen t x o h v) /\
  ytar s' = Fin (cpoly coalYieldNum t x o h v / cpoly coalYieldDen t x o h v) /\
  OC s' = Fin o /\ HC s' = Fin h /\ State.V s' = Fin v /\
  with_coal (with_my s' (mtar s) (ytar s)) (OC s) (HC s) (State.V s) = s.
Proof.
  intros ET EP Hp x Hy Hm s'. unfold s'.
  rewrite (coal_val (get_coal s (Fin o) (Fin h) (Fin v)) t p o h v) by first [exact ET|exact EP|exact Hp|exact Hy|exact Hm|reflexivity].
  split; [reflexivity|]. split; [reflexivity|]. split; [reflexivity|]. split; [reflexivity|]. split; [reflexivity|]. destruct s. reflexivity.
Qed.
Lemma coal_case : cpoly coalYieldDen 1500 (atmLog 101325) (1 / 10) (7 / 10) (682 / 10) <> 0 /\ cpoly coalMassDen 1500 (atmLog 101325) (1 / 10) (7 / 10) (682 / 10) <> 0.
Proof. rewrite atm_one. redp. split; lra. Qed.
