(** The burner-flame drivers: the exchanged mass fractions. *)
From Coq Require Import ZArith List Bool Reals Lra Lia.
From Verif Require Import Num Defs State Coag Nucl Growth Oxid Tar SootModel Qmom Mono Calls Interp Flame XR XRLemmas NumLaws SpecInterp SpecState SpecChem SpecCoag SpecValid SpecRates SpecPah SpecPsd SpecSect SpecLogn SpecQmom SpecMomic SpecSafe SpecFinite SpecFrame SpecFlame
  CoagProofs MonoCases MonoMain InterpProofs StateProofs StateXR ValidProofs SafeProofs SafeMain HistMain NeedsMain SurfProofs HmomProofs ShortMain FrameMain FiniteMain RateProofs PsdProofs QmomProofs QmomMain QmomFinal FlameProofs FlameMain FlameFin FlameFinal.
Import ListNotations.
Local Open Scope R_scope.

Lemma fresh_fun eig m n g M r r' : fresh eig m n g M r -> fresh eig m n g M r' -> r = r'.
Proof.
  intros (a & b & c & E & <-) (a' & b' & c' & E' & <-). pose proof (eq_trans (eq_sym E) E') as Z. apply (f_equal (fun r => match r with Ok (_, x, _) => soots x | _ => [] end)) in Z. exact Z.
Qed.
(** where the two columns agree the driver applies the midpoint rule *)
Lemma same_columns f eig m n dz z M M' : w_y f H_ = w_y f O2 -> midpointWith (driverGas f) eig m n f dz z M M' -> midpoint eig m n f dz z M M'.
Proof.
  intros H (r1 & r2 & F1 & F2 & E). exists r1, r2. cbv zeta in *. split; [exact F1|]. split; [|exact E].
  assert (EG : gasVec (gY (driverGas f (z + dz / 2))) = gasVec (gY (gasAt f (z + dz / 2)))).
  { unfold gasVec. apply map_ext. intros sp. unfold driverGas, withO2. cbn [gY]. destruct sp; try reflexivity. unfold gasAt. cbn [gY]. now rewrite H. }
  unfold fresh in *. rewrite EG in F2. exact F2.
Qed.

(** the two-moment quadrature *)
Lemma fresh_qmom2 eig m0 gs M0 M1 r : flameModel (N:=XR) P_QMOM 2 = Ok m0 -> physical gs -> 0 <= M1 -> 0 <= M0 ->
  fresh eig m0 2 gs (map Fin [M0; M1]) r ->
  exists w x, (M0 = 0 -> w = 0 /\ x = 0) /\ (0 < M0 -> w = M0 /\ x = M1 / M0) /\
  r = map (fun j => Fin (qmomSource flameK gs M0 M1 [w] [x] (nucl flameK gs (nodeHits flameK gs [w] [x])) j)) (seq 0 2).
Proof.
  intros E0 PH P1 P0 (st & m' & s' & ER & <-). assert (SZ : flameSize P_QMOM 2) by (split; [lia|reflexivity]).
  destruct (setTo_ok None m0 (newState 2 0) gs [M0; M1] []) as (s & E & V & _ & Ew & Ea & _); auto; [intros y [<-|[<-|[]]]; lra|intros y []|].
  assert (RQ : readyQmom m0 s gs flameK [M0; M1] 1).
  { pose proof (flame_inv P_QMOM 2 m0 E0 SZ) as (A & B & _ & _ & _ & _ & _ & _ & _ & X). cbn [extra] in X. destruct X as (q & Hq & (Q1 & Q2 & Q3 & Q4 & Q5) & _).
    assert (q = 1%nat) as -> by lia. split; [|split; [exact A|split; [exact flame_okAll|split; [exact V|split; [reflexivity|intros [H|H]; discriminate H]]]]].
    unfold isQmom. rewrite Ew, Ea. auto. }
  destruct (r_nodes m0 s gs flameK [M0; M1] 1 eig RQ) as (w1 & x1 & EN & L1 & L2 & N1 & N2 & _ & HZ & HN). cbn [el nth] in HN, HZ.
  assert (SM : mC flameK = C_NONE \/ (1 <= 17)%nat) by (right; lia).
  destruct (r_call m0 s gs flameK [M0; M1] 1 eig None RQ SM _ _ EN L1 L2 N1 N2) as (m1 & s1 & C & _ & SO & _).
  assert (EQ : foldM doAction [setTo gs [M0; M1] []; ASrc eig] (None, m0, newState 2 0) = Ok (None, m1, s1)).
  { cbn [foldM]. etransitivity; [apply (f_equal (fun r => bind r _)); exact E|]. cbn [bind doAction]. etransitivity; [apply (f_equal (fun r => bind r _)); exact C|]. reflexivity. }
  pose proof (eq_trans (eq_sym ER) EQ) as Z. apply (f_equal (fun r => match r with Ok (_, x, _) => soots x | _ => [] end)) in Z. cbv beta iota in Z.
  destruct w1 as [|w [|]]; try discriminate L1. destruct x1 as [|x [|]]; try discriminate L2. exists w, x. split; [|split; [|exact (eq_trans Z SO)]].
  - intros H. destruct (HZ H) as (A & B). injection A as ->. injection B as ->. auto.
  - intros H. destruct (HN H) as (w2 & x2 & q & Hq & _ & _ & H1 & H2 & _ & _ & H3). assert (q = 1%nat) as -> by lia. destruct (H3 eq_refl) as (-> & ->). cbn [app repeat Nat.sub] in H1, H2. injection H1 as ->. injection H2 as ->. auto.
Qed.
Lemma q_split g M0 M1 w x j : let o := nucl flameK g (nodeHits flameK g [w] [x]) in
  qmomSource flameK g M0 M1 [w] [x] o j = Jnuc flameK g * nucMass g ^ j + (kgrow flameK g M0 M1 - koxid flameK g M0 M1) * areaCoef * INR j * fracMoment [w] [x] (INR j - 1 / 3)
    + 1 / 2 * (kernel flameK g x x * w * w * ((x + x) ^ j - x ^ j - x ^ j)).
Proof.
  intros o. unfold qmomSource. replace (condense flameK g [w] [x] o j) with 0.
  - unfold smoluchowski, Sum. cbn [length seq map SpecRates.sumR fold_right el nth]. unfold o, nucl. change (isP flameK) with false. cbv iota. cbn [oJ oGas]. ring.
  - unfold condense, o, nucl. change (isP flameK) with false. cbv iota. cbn [oMass oConc]. ring.
Qed.
Lemma frac_one w x r : 0 < w -> 0 < x -> fracMoment [w] [x] r = w * Rpower x r.
Proof.
  intros Pw Px. unfold fracMoment. cbn [SpecQmom.allPos]. destruct (Rlt_dec 0 w); [|lra]. destruct (Rlt_dec 0 x); [|lra]. cbn [andb]. unfold Sum. cbn [length seq map SpecRates.sumR fold_right el nth]. ring.
Qed.
Lemma frac_none r : fracMoment [0] [0] r = 0.
Proof. unfold fracMoment. cbn [SpecQmom.allPos]. destruct (Rlt_dec 0 0); [lra|]. reflexivity. Qed.

(** a flame of acetylene and hydrogen atoms *)
Definition evenFlow : flow :=
  let c x := [x; x] in
  mkFlow [0; 1] (c 1) (c 1500) (c (1 / 5)) (c (1 / 20000)) (fun sp => match sp with H_ => c (1 / 100) | C2H2 => c (1 / 10) | _ => c 0 end).
Lemma even_phys : physicalFlow evenFlow.
Proof.
  split; [|split; [|split; [|split; [|split]]]].
  - split; [cbn; lia|]. split; [intros i j Hij; cbn in Hij|split; [reflexivity|split; [reflexivity|split; [reflexivity|split; [reflexivity|intros sp _; destruct sp; reflexivity]]]]].
    destruct i as [|i]; destruct j as [|[|j]]; cbn; try lia; lra.
  - intros x [<-|[<-|[]]]; lra.
  - intros x [<-|[<-|[]]]; lra.
  - intros x [<-|[<-|[]]]; lra.
  - intros x [<-|[<-|[]]]; lra.
  - intros sp _ x Hx. destruct sp; destruct Hx as [<-|[<-|[]]]; lra.
Qed.
Lemma line_const c x : lineAt [0; 1] [c; c] x = c.
Proof. cbn [lineAt]. field. Qed.
Section Even.
Let f := evenFlow.
Lemma even_inside z : 0 <= z <= 1 -> inside f z.
Proof. intros H. unfold inside, f, bottom, top, evenFlow. cbn [w_z length Nat.sub nth]. exact H. Qed.
Lemma even_rho z : rhoAt f z = 1 / 5. Proof. apply line_const. Qed.
Lemma even_vel z : velAt f z = 1. Proof. apply line_const. Qed.
Lemma even_J z : Jnuc flameK (gasAt f z) = Jnuc flameK (gasAt f 0) /\ Jnuc flameK (driverGas f z) = Jnuc flameK (gasAt f 0) /\ 0 < Jnuc flameK (gasAt f 0).
Proof.
  assert (A : forall z, gT (gasAt f z) = 1500) by (intros; apply line_const). assert (B : forall z, gRho (gasAt f z) = 1 / 5) by (intros; apply line_const).
  assert (C : forall z, gY (gasAt f z) C2H2 = 1 / 10) by (intros; apply line_const).
  unfold Jnuc, flameK. cbn [mN nuclFormula]. unfold perParticle, conc, driverGas, withO2. cbn [gT gRho gCMin gY]. rewrite !A, !B, !C. split; [reflexivity|]. split; [reflexivity|].
  cbn [gCMin gasAt]. assert (0 < molarMass C2H2) by (unfold molarMass, massC, massH; cbn; lra). pose proof avo_pos. mpos.
Qed.
Lemma even_area : 0 < areaCoef. Proof. unfold areaCoef. apply Rmult_lt_0_compat; [exact piC_pos|unfold Rpower; apply exp_pos]. Qed.
Lemma even_nuc g : gCMin g = 1667 -> 0 < nucMass g. Proof. intros H. unfold nucMass. rewrite H. pose proof avo_pos. pose proof massC_pos. mpos. Qed.
Lemma even_grow z M0 M1 : kgrow flameK (driverGas f z) M0 M1 = kgrow flameK (gasAt f z) M0 M1. Proof. reflexivity. Qed.
Lemma even_oxid z M0 M1 : koxid flameK (gasAt f z) M0 M1 = 0 /\ 0 < koxid flameK (driverGas f z) M0 M1.
Proof.
  assert (A : forall z, gT (gasAt f z) = 1500) by (intros; apply line_const). assert (B : forall z, gRho (gasAt f z) = 1 / 5) by (intros; apply line_const).
  assert (C : gY (gasAt f z) O2 = 0) by apply line_const. assert (D : gY (driverGas f z) O2 = 1 / 100) by apply line_const.
  unfold koxid, flameK. cbn [mO oxidFormula]. unfold conc. rewrite C, D. split; [unfold Rdiv; ring|].
  change (gT (driverGas f z)) with (gT (gasAt f z)). change (gRho (driverGas f z)) with (gRho (gasAt f z)). rewrite A, B.
  assert (0 < molarMass O2) by (unfold molarMass, massO; cbn; lra). pose proof massC_pos. assert (0 < sqrt 1500) by (apply sqrt_lt_R0; lra). mpos.
Qed.
Lemma even_differs eig m0 Ma Mb : flameModel (N:=XR) P_QMOM 2 = Ok m0 ->
  midpointWith (driverGas f) eig m0 2 f 1 0 (zeros (N:=XR) 2) Ma -> midpoint eig m0 2 f 1 0 (zeros (N:=XR) 2) Mb ->
  exists a b x y, Ma = [Fin a; Fin x] /\ Mb = [Fin b; Fin y] /\ x < y.
Proof.
  intros E0 (r1 & r2 & A1 & A2 & ->) (q1 & q2 & B1 & B2 & ->). cbv zeta in *. rewrite (zeros_fin 2), times_fin in A1, B1. rewrite (zeros_fin 2) in A2, B2.
  assert (r1 = q1) as <- by (eapply fresh_fun; eauto). clear B1.
  assert (I0 : inside f 0) by (apply even_inside; lra). assert (Ih : inside f (0 + 1 / 2)) by (apply even_inside; lra).
  replace (map (fun x : R => x * rhoAt f 0) (repeat 0 2)) with [0; 0] in A1 by (cbn [repeat map]; rewrite !Rmult_0_l; reflexivity).
  pose proof (gas_physical f even_phys) as GP. pose proof (driver_physical f even_phys) as DP.
  apply (fresh_qmom2 eig m0 _ 0 0 r1 E0 (GP 0 I0) (Rle_refl 0) (Rle_refl 0)) in A1. destruct A1 as (w & x & HZ & _ & ->). destruct (HZ eq_refl) as (-> & ->).
  cbn [seq map] in A2, B2. rewrite !q_split, !frac_none in A2, B2. set (J := Jnuc flameK (gasAt f 0)) in *. set (mu := nucMass (gasAt f 0)).
  destruct (even_J 0) as (_ & _ & PJ). fold J in PJ. assert (Pm : 0 < mu) by (apply even_nuc; reflexivity).
  assert (SQ : forall j, Jnuc flameK (gasAt f 0) * nucMass (gasAt f 0) ^ j + (kgrow flameK (gasAt f 0) 0 0 - koxid flameK (gasAt f 0) 0 0) * areaCoef * INR j * 0 + 1 / 2 * (kernel flameK (gasAt f 0) 0 0 * 0 * 0 * ((0 + 0) ^ j - 0 ^ j - 0 ^ j)) = J * mu ^ j) by (intros j; unfold J, mu; ring).
  fold J in SQ. rewrite !SQ in A2, B2. rewrite pow_O, Rmult_1_r, pow_1 in A2, B2. change [Fin J; Fin (J * mu)] with (map Fin [J; J * mu]) in A2, B2.
  rewrite (along_fin (repeat 0 2) [J; J * mu]), times_fin in A2, B2 by (rewrite ?even_rho, ?even_vel; lra). cbn [repeat combine map fst snd] in A2, B2. rewrite !even_rho, !even_vel in A2, B2.
  match type of A2 with fresh _ _ _ _ [Fin ?u; Fin ?v] _ => change [Fin u; Fin v] with (map Fin [u; v]) in A2; replace u with (J / 2) in A2 by field; replace v with (J * mu / 2) in A2 by field end.
  match type of B2 with fresh _ _ _ _ [Fin ?u; Fin ?v] _ => change [Fin u; Fin v] with (map Fin [u; v]) in B2; replace u with (J / 2) in B2 by field; replace v with (J * mu / 2) in B2 by field end.
  assert (PK : 0 < J * mu) by (apply Rmult_lt_0_compat; assumption).
  apply (fresh_qmom2 eig m0 _ (J / 2) (J * mu / 2) r2 E0 (DP _ Ih)) in A2; [|lra|lra]. apply (fresh_qmom2 eig m0 _ (J / 2) (J * mu / 2) q2 E0 (GP _ Ih)) in B2; [|lra|lra].
  destruct A2 as (wa & xa & _ & HA & ->), B2 as (wb & xb & _ & HB & ->). destruct HA as (-> & ->); [lra|]. destruct HB as (-> & ->); [lra|].
  cbn [seq map]. rewrite !q_split. rewrite (zeros_fin 2).
  match goal with |- context [along _ [Fin ?u; Fin ?v] _ _ _] => change [Fin u; Fin v] with (map Fin [u; v]) end. rewrite (along_fin _ [_; _]) by (rewrite ?even_rho, ?even_vel; lra).
  match goal with |- context [along _ [Fin ?u; Fin ?v] _ _ _] => change [Fin u; Fin v] with (map Fin [u; v]) end. rewrite (along_fin _ [_; _]) by (rewrite ?even_rho, ?even_vel; lra).
  cbn [repeat combine map fst snd]. do 4 eexists. split; [reflexivity|]. split; [reflexivity|].  rewrite !even_rho, !even_vel.
  set (z := 0 + 1 / 2). set (X := J * mu / 2 / (J / 2)). assert (PX : 0 < X) by (unfold X; apply Rdiv_lt_0_compat; lra).
  destruct (even_J z) as (E1 & E2 & _). rewrite E1, E2. fold J. rewrite frac_one by lra. rewrite even_grow. destruct (even_oxid z (J / 2) (J * mu / 2)) as (O1 & O2). rewrite O1.
  change (nucMass (driverGas f z)) with mu. change (nucMass (gasAt f z)) with mu. cbn [INR pow].
  set (K := kgrow _ _ _ _). set (o := koxid flameK (driverGas f z) (J / 2) (J * mu / 2)) in *. pose proof even_area as PA.
  assert (PW : 0 < Rpower X (1 - 1 / 3)) by (unfold Rpower; apply exp_pos). set (w := Rpower X _) in *.
  assert (PD : 0 < o * areaCoef * (J / 2 * w)) by (apply Rmult_lt_0_compat; [apply Rmult_lt_0_compat; assumption|apply Rmult_lt_0_compat; [lra|assumption]]). clearbody o w X K.
  match goal with |- ?a < ?b => assert (E : b - a = 5 * (o * areaCoef * (J / 2 * w))) by field end. lra.
Qed.
End Even.
Lemma same_columns_iff f eig m n dz z M M' : w_y f H_ = w_y f O2 ->
  (midpointWith (driverGas f) eig m n f dz z M M' <-> midpoint eig m n f dz z M M').
Proof.
  intros H. split; [now apply same_columns|]. intros (r1 & r2 & F1 & F2 & E). exists r1, r2. cbv zeta in *. split; [exact F1|]. split; [|exact E].
  assert (EG : gasVec (gY (driverGas f (z + dz / 2))) = gasVec (gY (gasAt f (z + dz / 2)))).
  { unfold gasVec. apply map_ext. intros sp. unfold driverGas, withO2. cbn [gY]. destruct sp; try reflexivity. unfold gasAt. cbn [gY]. now rewrite H. }
  unfold fresh in *. rewrite EG. exact F2.
Qed.
(** the midpoint rule has a value *)
Lemma mid_exists f p n m0 eig dz z M : physicalFlow f -> flameModel (N:=XR) p n = Ok m0 -> flameSize p n -> 0 <= dz -> inside f z -> inside f (z + dz) -> length M = n ->
  exists M', midpoint eig m0 n f dz z M M'.
Proof.
  intros PF E0 SZ PD Bz Bd LM. assert (Bh : inside f (z + dz / 2)) by (unfold inside in *; lra).
  destruct (eval_ok p n m0 E0 SZ eig m0 (newState n 0) (gasAt f z) (full8 f z) (times (rhoAt f z) M) (ready0 p n m0 E0 SZ) (suits_full f PF z Bz)) as (s1 & m1 & s1' & _ & _ & _ & F1 & L1); [unfold times; now rewrite map_length|].
  set (Mh := along M (soots m1) (dz / 2) (rhoAt f z) (velAt f z)). assert (LH : length Mh = n) by now apply along_len.
  destruct (eval_ok p n m0 E0 SZ eig m0 (newState n 0) (gasAt f (z + dz / 2)) (full8 f (z + dz / 2)) (times (rhoAt f (z + dz / 2)) Mh) (ready0 p n m0 E0 SZ) (suits_full f PF _ Bh)) as (s2 & m2 & s2' & _ & _ & _ & F2 & L2); [unfold times; now rewrite map_length|].
  eexists. exists (soots m1), (soots m2). split; [exact F1|]. split; [exact F2|reflexivity].
Qed.
Lemma not_midpoint : exists f m0, physicalFlow f /\ flameModel (N:=XR) P_QMOM 2 = Ok m0 /\ forall eig, exists a,
  flame eig P_QMOM 2 1 (columnsOf f) = Ok a /\
  (exists M, midpoint eig m0 2 f (stepLen f 1) (bottom f) (zeros (N:=XR) 2) M) /\
  forall M, midpoint eig m0 2 f (stepLen f 1) (bottom f) (zeros (N:=XR) 2) M -> pr_M a <> M.
Proof.
  assert (SZ : flameSize P_QMOM 2) by (split; [lia|reflexivity]). destruct (flame_built P_QMOM 2 SZ) as (m0 & E0). exists evenFlow, m0. split; [exact even_phys|]. split; [exact E0|]. intros eig.
  destruct (trajectory evenFlow even_phys P_QMOM 2 m0 E0 SZ eig 1 (le_n 1)) as (m & s & Mt & E & Z0 & _ & HM). eexists. split; [exact E|]. cbn [pr_M].
  assert (ES : stepLen evenFlow 1 = 1) by (unfold stepLen, top, bottom, evenFlow; cbn [w_z length Nat.sub nth INR]; field).
  assert (EH : height evenFlow 1 0 = 0) by (unfold height, bottom, evenFlow; cbn [w_z nth INR]; ring).
  specialize (HM 0%nat (le_n 1)). rewrite Z0, ES, EH in HM. rewrite ES. change (bottom evenFlow) with 0. split.
  - apply (mid_exists evenFlow P_QMOM 2 m0 eig 1 0 _ even_phys E0 SZ); [lra|apply even_inside; lra|apply even_inside; lra|reflexivity].
  - intros M HQ. destruct (even_differs eig m0 _ _ E0 HM HQ) as (a & b & x & y & Ea & Eb & L). intros H. pose proof (eq_trans (eq_trans (eq_sym Ea) H) Eb) as Q. injection Q as _ Q. lra.
Qed.
Lemma run_all f p n m0 eig nsteps :
  physicalFlow f -> flameModel (N:=XR) p n = Ok m0 -> flameSize p n -> (1 <= nsteps)%nat ->
  exists m s Mt,
    flame eig p n nsteps (columnsOf f) = Ok (mkLoop (N:=XR) (None, m, s) (Fin (top f)) (Mt nsteps) (rows f nsteps nsteps Mt)) /\
    Mt 0%nat = zeros (N:=XR) n /\ (forall i, (i <= nsteps)%nat -> length (Mt i) = n) /\
    (forall i, (i < nsteps)%nat -> midpointWith (driverGas f) eig m0 n f (stepLen f nsteps) (height f nsteps i) (Mt i) (Mt (S i))) /\
    (p <> P_MOMIC -> forall i, (i <= nsteps)%nat -> allFinite (Mt i)).
Proof.
  intros PF E0 SZ PN. destruct (trajectory f PF p n m0 E0 SZ eig nsteps PN) as (m & s & Mt & E & Z0 & L & HM). exists m, s, Mt. repeat (split; [assumption|]).
  intros NM i Hi. destruct (all_finite f PF p n m0 E0 SZ eig nsteps PN Mt NM Z0 HM i Hi) as (a & -> & _). intros x Hx. apply in_map_iff in Hx. destruct Hx as (r & <- & _). eauto.
Qed.
(** a flame whose columns of O2 and H agree *)
Definition sameFlow : flow :=
  mkFlow [0; 1 / 2; 2] [1; 2; 3] [300; 1500; 1800] [1; 1 / 4; 1 / 5] [1 / 50000; 1 / 20000; 1 / 20000]
    (fun sp => match sp with O2 | H_ => [1 / 5; 1 / 10; 0] | C2H2 => [0; 1 / 10; 1 / 20] | _ => [0; 0; 0] end).
Lemma same_phys : physicalFlow sameFlow.
Proof.
  split; [|split; [|split; [|split; [|split]]]].
  - split; [cbn; lia|]. split; [intros i j Hij; cbn in Hij|split; [reflexivity|split; [reflexivity|split; [reflexivity|split; [reflexivity|intros sp _; destruct sp; reflexivity]]]]].
    destruct i as [|[|i]]; destruct j as [|[|[|j]]]; cbn; try lia; lra.
  - intros x [<-|[<-|[<-|[]]]]; lra.
  - intros x [<-|[<-|[<-|[]]]]; lra.
  - intros x [<-|[<-|[<-|[]]]]; lra.
  - intros x [<-|[<-|[<-|[]]]]; lra.
  - intros sp _ x Hx. destruct sp; destruct Hx as [<-|[<-|[<-|[]]]]; lra.
Qed.
Lemma flame_cases : physicalFlow evenFlow /\ wellFormed evenFlow /\
  (exists m, flameModel (N:=XR) P_QMOM 6 = Ok m) /\ flameSize P_QMOM 6 /\
  (exists m, flameModel (N:=XR) P_MOMIC 7 = Ok m) /\ flameSize P_MOMIC 7 /\
  physicalFlow sameFlow /\ w_y sameFlow H_ = w_y sameFlow O2 /\ bottom evenFlow = 0 /\ top evenFlow = 1.
Proof.
  assert (S6 : flameSize P_QMOM 6) by (split; [lia|reflexivity]). assert (S7 : flameSize P_MOMIC 7) by (cbn; lia).
  split; [exact even_phys|]. split; [exact (proj1 even_phys)|]. split; [now apply flame_built|]. split; [exact S6|]. split; [now apply flame_built|]. split; [exact S7|].
  split; [exact same_phys|]. split; [reflexivity|]. split; reflexivity.
Qed.
