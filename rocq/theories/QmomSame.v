(** Quadrature with two moments against the monodisperse model (C37), an honest
    eigen-solver of order 2 and concrete cases for C33-C37. *)
From Coq Require Import ZArith List Bool Reals Lra Lia Permutation.
From Verif Require Import Num Defs State Coag Nucl Growth Oxid Tar SootModel Mono Qmom Calls XR XRLemmas
  SpecState SpecChem SpecCoag SpecValid SpecRates SpecGas SpecTar SpecPah SpecPsd SpecSect SpecQmom CoagProofs StateXR ValidProofs InterpProofs GasProofs MiscProofs RateProofs PsdProofs PahProofs
  MonoProofs MonoTar MonoMain MonoCases SectProofs ChemAll SectMain SectFinal QmomProofs QmomRun QmomMain GaussProofs GaussMain QmomFinal QmomCases.
Import ListNotations.
Local Open Scope R_scope.

Lemma Sum_1 f : Sum 1 f = f 0%nat.
Proof. rewrite Sum_S. unfold Sum, sumR. cbn [seq map fold_right]. ring. Qed.
Lemma frac_one M0 M1 : 0 < M0 -> 0 <= M1 -> areaCoef * fracMoment [M0] [M1 / M0] (1 - 1 / 3) = surface M0 M1.
Proof.
  intros P0 P1. rewrite surface_sphere by auto. unfold fracMoment. cbn [allPos length]. rewrite Sum_1. unfold el. cbn [nth].
  destruct (Rlt_dec 0 M0); [|lra]. destruct (Rlt_dec 0 (M1 / M0)) as [H|H]; cbn [andb].
  - rewrite <- areaCoef_sphere by auto. ring.
  - unfold sphere. destruct (Rlt_dec 0 (M1 / M0)); [contradiction|]. ring.
Qed.
Lemma hits_one k g M0 x : nodeHits k g [M0] [x] = M0 * kernel k g (dimerMass g) x.
Proof. unfold nodeHits. cbn [length]. rewrite Sum_1. unfold el. cbn [nth]. ring. Qed.

Lemma C37_l (mM mQ : model (N:=XR)) s g k M0 M1 st eig : readyQmom mQ s g k [M0; M1] 1 -> 0 < M0 ->
  sm_psd mM = P_MONO -> noTar mM -> sm_nucl mM = sm_nucl mQ -> sm_grow mM = sm_grow mQ -> sm_oxid mM = sm_oxid mQ -> sm_coag mM = sm_coag mQ ->
  exists m1 m2 s', setSourceTerms st eig mM s = Ok (st, m1, s') /\ setSourceTerms st eig mQ s = Ok (st, m2, s') /\
    soots m1 = soots m2 /\ gases m1 = gases m2 /\ (pahs mM = pahs mQ -> pahs m1 = pahs m2) /\
    exists a b, soots m1 = [Fin a; Fin b].
Proof.
  intros RD P0 HP HT E1 E2 E3 E4. pose proof RD as (HQ & HM & OM & V & L & RG). pose proof HQ as (_ & _ & _ & Lw & La).
  pose proof (v_sootpos _ _ _ V M1 ltac:(right; now left)) as P1.
  destruct (r_nodes mQ s g k _ 1 eig RD) as (w & x & EN & L1 & L2 & NW & NX & _ & _ & K).
  change (el [M0; M1] 0) with M0 in *. change (el [M0; M1] 1) with M1 in *.
  destruct (K P0) as (w1 & x1 & q & Hq & La1 & La2 & Ew & Ex & _ & _ & K2). assert (Q1 : q = 1%nat) by lia. destruct (K2 Q1) as (A & B). rewrite Q1 in Ew, Ex.
  rewrite A in Ew. rewrite B in Ex. cbn [Nat.sub repeat app] in Ew, Ex. subst w x.
  pose proof (q_exact mQ s g k _ 1 eig _ _ HQ HM OM V L RG EN L1 L2 NW NX st ltac:(lia)) as EQ. cbv zeta in EQ.
  assert (HA : hasAll mM k). { unfold hasAll, hasGOC. rewrite E1, E2, E3, E4. exact HM. }
  pose proof (mono_exact mM s g k M0 M1 st eig HP HA OM HT V RG P0 Lw La) as EM. cbv zeta in EM.
  change (el [M0; M1] 0) with M0 in *. change (el [M0; M1] 1) with M1 in *.
  rewrite hits_one in EQ. set (i := M0 * kernel k g (dimerMass g) (M1 / M0)) in *. set (o := nucl k g i) in *.
  eexists. eexists. eexists. split; [exact EM|]. split; [exact EQ|].
  assert (FR : forall a, a * areaCoef * fracMoment [M0] [M1 / M0] (1 - 1 / 3) = a * surface M0 M1) by (intros; rewrite <- frac_one by auto; ring).
  assert (SO : monoSources k g o M0 M1 M0 (M1 / M0) = map (fun r => Fin (qmomSource k g M0 M1 [M0] [M1 / M0] o r)) (seq 0 (2 * 1))).
  { cbn [Nat.mul Nat.add seq map]. unfold monoSources, qmomSource, condense. rewrite smol_1, smol_0. cbn [length]. rewrite !Sum_1. unfold el. cbn [nth pow Nat.sub].
    change (INR 0) with 0. change (INR 1) with 1. rewrite Rmult_0_r, Rmult_0_l.
    replace ((kgrow k g M0 M1 - koxid k g M0 M1) * areaCoef * 1 * fracMoment [M0] [M1 / M0] (1 - 1 / 3)) with ((kgrow k g M0 M1 - koxid k g M0 M1) * surface M0 M1)
      by (rewrite <- (FR (kgrow k g M0 M1 - koxid k g M0 M1)); ring).
    unfold oN1. apply f_equal2; [f_equal; ring|]. apply f_equal2; [f_equal; ring|reflexivity]. }
  split; [exact SO|]. split; [|split; [|eexists; eexists; reflexivity]].
  - unfold gases, finish. cbn [sm_sources with_sources gasSources]. rewrite !FR.
    rewrite (gasSrc_same (outM k g mM i []) (outM k g mQ i [])).
    + do 3 f_equal. ring.
    + rewrite !outM_nucl, E1. reflexivity.
    + destruct (outM_rest k g mM i []) as (_ & _ & -> & _). destruct (outM_rest k g mQ i []) as (_ & _ & -> & _). exact E2.
    + destruct (outM_rest k g mM i []) as (_ & _ & _ & -> & _). destruct (outM_rest k g mQ i []) as (_ & _ & _ & -> & _). exact E3.
  - intros EP. unfold pahs, finish. cbn [sm_sources with_sources pahSources]. unfold isPAH. rewrite !outM_nucl, E1.
    destruct (outM_rest k g mM i []) as (_ & _ & _ & _ & _ & _ & _ & ->). destruct (outM_rest k g mQ i []) as (_ & _ & _ & _ & _ & _ & _ & ->).
    unfold pahs in EP. rewrite EP. reflexivity.
Qed.

(** ** an honest solver of order 2 *)
Definition isNaN (v : xr) : bool := match v with NaN => true | _ => false end.
Definition real (v : xr) : R := match v with Fin a => a | _ => 0 end.
Definition disc (a b c : R) : R := sqrt (((a - c) / 2) ^ 2 + b ^ 2).
(** eigenvalue and offset from the first diagonal entry *)
Definition shift (a b c : R) (l : nat) : R := (c - a) / 2 + (if Nat.eqb l 0 then disc a b c else - disc a b c).
Definition val2 (a b c : R) (l : nat) : R := if Req_EM_T b 0 then (if Nat.eqb l 0 then a else c) else a + shift a b c l.
Definition vec2 (a b c : R) (l i : nat) : R :=
  if Req_EM_T b 0 then (if Nat.eqb l i then 1 else 0)
  else (if Nat.eqb i 0 then b else shift a b c l) / sqrt (b ^ 2 + shift a b c l ^ 2).
Definition eig2 : eigSolver (N:=XR) := fun n d e =>
  if existsb isNaN d then (fun _ => NaN, fun _ => NaN) else
  let a := real (nth 0 d (Fin 0)) in let c := real (nth 1 d (Fin 0)) in let b := real (nth 0 e (Fin 0)) in
  (fun l => Fin (val2 a b c l), fun q => Fin (vec2 a b c (Nat.div q 2) (Nat.modulo q 2))).

Lemma shift_prod a b c : shift a b c 0 * shift a b c 1 = - b ^ 2.
Proof.
  unfold shift. cbn [Nat.eqb]. pose proof (sqrt_sqrt (((a - c) / 2) ^ 2 + b ^ 2)) as S. fold (disc a b c) in S.
  assert (0 <= ((a - c) / 2) ^ 2 + b ^ 2) by (pose proof (pow2_ge_0 ((a - c) / 2)); pose proof (pow2_ge_0 b); lra). specialize (S H).
  replace (((c - a) / 2 + disc a b c) * ((c - a) / 2 + - disc a b c)) with (((c - a) / 2) ^ 2 - disc a b c * disc a b c) by ring. rewrite S. field.
Qed.
Lemma shift_root a b c l : (l < 2)%nat -> shift a b c l * (shift a b c l) = b ^ 2 + (c - a) * shift a b c l.
Proof.
  intros H. unfold shift. pose proof (sqrt_sqrt (((a - c) / 2) ^ 2 + b ^ 2)) as S. fold (disc a b c) in S.
  assert (0 <= ((a - c) / 2) ^ 2 + b ^ 2) by (pose proof (pow2_ge_0 ((a - c) / 2)); pose proof (pow2_ge_0 b); lra). specialize (S H0).
  destruct (Nat.eqb l 0).
  - replace (((c - a) / 2 + disc a b c) * ((c - a) / 2 + disc a b c)) with (((c - a) / 2) ^ 2 + disc a b c * disc a b c + (c - a) * disc a b c) by field. rewrite S. field.
  - replace (((c - a) / 2 + - disc a b c) * ((c - a) / 2 + - disc a b c)) with (((c - a) / 2) ^ 2 + disc a b c * disc a b c - (c - a) * disc a b c) by field. rewrite S. field.
Qed.
Lemma Sum_2 f : Sum 2 f = f 0%nat + f 1%nat.
Proof. rewrite Sum_S, Sum_1. reflexivity. Qed.
Lemma eig2_decomposes d e : length d = 2%nat -> length e = 1%nat ->
  decomposes 2 d e (val2 (el d 0) (el e 0) (el d 1)) (vec2 (el d 0) (el e 0) (el d 1)).
Proof.
  intros Ld Le. set (a := el d 0). set (c := el d 1). set (b := el e 0). unfold val2, vec2. destruct (Req_EM_T b 0) as [Z|NZ].
  - split.
    + intros [|[|l]] [|[|i]] Hl Hi; try lia; cbn [Nat.eqb Nat.sub Nat.ltb Nat.leb]; fold a b c; rewrite ?Z; ring.
    + intros [|[|i]] [|[|j]] Hi Hj; try lia; rewrite Sum_2; cbn [Nat.eqb]; ring.
  - assert (PB : 0 < b ^ 2) by (rewrite <- Rsqr_pow2; apply Rlt_0_sqr; auto).
    assert (PN : forall l, 0 < sqrt (b ^ 2 + shift a b c l ^ 2)). { intros l. apply sqrt_lt_R0. pose proof (pow2_ge_0 (shift a b c l)). lra. }
    assert (SN : forall l, sqrt (b ^ 2 + shift a b c l ^ 2) * sqrt (b ^ 2 + shift a b c l ^ 2) = b ^ 2 + shift a b c l ^ 2).
    { intros l. apply sqrt_sqrt. pose proof (pow2_ge_0 (shift a b c l)). lra. }
    split.
    + intros l i Hl Hi. pose proof (shift_root a b c l Hl) as SR. pose proof (PN l). set (n := sqrt (b ^ 2 + shift a b c l ^ 2)) in *.
      destruct i as [|[|i]]; try lia; cbn [Nat.eqb Nat.sub Nat.ltb Nat.leb]; fold a b c.
      * field. lra.
      * apply (Rmult_eq_reg_r n); [|lra]. replace ((a + shift a b c l) * (shift a b c l / n) * n) with (a * shift a b c l + shift a b c l * shift a b c l) by (field; lra).
        rewrite SR. field. lra.
    + pose proof (shift_prod a b c) as SP. set (t := shift a b c 0) in *. set (u := shift a b c 1) in *.
      assert (Nt : t <> 0) by (intros Q; rewrite Q in SP; lra). assert (Nu : u <> 0) by (intros Q; rewrite Q in SP; lra).
      assert (Ntu : t - u <> 0). { intros Q. assert (t = u) by lra. subst. rewrite H in SP. pose proof (pow2_ge_0 u). lra. }
      assert (G : forall v1 v2 r1 r2, v1 / sqrt (b ^ 2 + t ^ 2) * (v2 / sqrt (b ^ 2 + t ^ 2)) + r1 / sqrt (b ^ 2 + u ^ 2) * (r2 / sqrt (b ^ 2 + u ^ 2))
                 = v1 * v2 / (t * (t - u)) - r1 * r2 / (u * (t - u))).
      { intros. replace (t * (t - u)) with (sqrt (b ^ 2 + t ^ 2) * sqrt (b ^ 2 + t ^ 2)) by (unfold t; rewrite SN; fold t; lra).
        replace (u * (t - u)) with (- (sqrt (b ^ 2 + u ^ 2) * sqrt (b ^ 2 + u ^ 2))) by (unfold u; rewrite SN; fold u; lra).
        pose proof (PN 0%nat). pose proof (PN 1%nat). fold t in H. fold u in H0. field. lra. }
      intros [|[|i]] [|[|j]] Hi Hj; try lia; rewrite Sum_2; cbn [Nat.eqb]; fold t u; rewrite G; replace (b * b) with (- (t * u)) by lra; field; auto.
Qed.
Lemma eig2_honest : honest eig2 2.
Proof.
  intros d e Ld Le. cbn [Nat.sub] in Le. exists (val2 (el d 0) (el e 0) (el d 1)), (vec2 (el d 0) (el e 0) (el d 1)). split; [now apply eig2_decomposes|].
  destruct d as [|a [|c [|]]]; try discriminate. destruct e as [|b [|]]; try discriminate.
  unfold eig2. cbn [map existsb isNaN orb nth real fst snd el]. unfold el. cbn [nth]. split; [reflexivity|].
  intros [|[|l]] [|[|i]] Hl Hi; try lia; reflexivity.
Qed.
Lemma eig2_notices : noticesNaN eig2.
Proof.
  intros n d e Hn IN. exists 0%nat. split; [lia|]. unfold eig2.
  assert (E : existsb isNaN d = true) by (apply existsb_exists; exists NaN; auto). rewrite E. reflexivity.
Qed.
Lemma honest1 (eig : eigSolver (N:=XR)) : (forall a e, fst (eig 1%nat [Fin a] e) 0%nat = Fin a /\ snd (eig 1%nat [Fin a] e) 0%nat = Fin 1) -> honest eig 1.
Proof.
  intros H d e Ld Le. destruct d as [|a [|]]; try discriminate. destruct e; try discriminate. exists (fun _ => a), (fun _ _ => 1). cbn [map].
  destruct (H a []) as (H1 & H2). split; [split|split].
  - intros [|l] [|i] Hl Hi; try lia. unfold el. cbn. ring.
  - intros [|i] [|j] Hi Hj; try lia. rewrite Sum_1. cbn. ring.
  - intros [|l] Hl; try lia. exact H1.
  - intros [|l] [|i] Hl Hi; try lia. exact H2.
Qed.

(** ** cases *)
Lemma quad_enum ns n gr ox co (m : model (N:=XR)) : constructEnum P_QMOM (2 * ns) n gr ox co 0 T_NONE (Fin 2) 100 = Ok m ->
  hasAll m (mkMechs n gr ox co 1) /\ sm_psd m = P_QMOM /\ sm_nsoot m = (2 * ns)%nat.
Proof. intros E. destruct (built _ _ _ _ _ _ _ _ _ _ _ E) as (H & Hp & Hn & _). auto. Qed.
Lemma quad_case nm gr ox soot p : (nm = N_LL \/ nm = N_PAH \/ nm = N_NONE) -> gr = G_LL \/ gr = G_NONE -> ox = O_LL \/ ox = O_NONE -> (1 <= p <= 50)%nat ->
  length soot = (2 * p)%nat -> nonneg soot ->
  exists m s, constructEnum P_QMOM (2 * p) nm gr ox C_FM 0 T_NONE (Fin 2) 100 = Ok m /\
    call (newState (2 * p) 0) (argsOf demoGas soot []) = SetOk s /\ readyQmom m s demoGas (mkMechs nm gr ox C_FM 1) soot p.
Proof.
  intros Hn Hg Ho Hp L NN.
  destruct (constructEnum (N:=XR) P_QMOM (2 * p) nm gr ox C_FM 0 T_NONE (Fin 2) 100) as [m| |] eqn:E.
  2, 3: exfalso; clear -E Hn Hg Ho Hp; unfold constructEnum, build in E; destruct Hn as [->|[->| ->]], Hg as [->| ->], Ho as [->| ->]; cbn [mkNuclEnum mkGrowEnum mkOxidEnum mkCoagEnum mkTarEnum bind] in E;
    unfold derivedCheck in E; replace (Nat.modulo (2 * p) 2) with 0%nat in E by (rewrite Nat.mul_comm, Nat.mod_mul; lia); replace (Nat.ltb (2 * p) 1) with false in E by (symmetry; apply Nat.ltb_ge; lia); discriminate E.
  destruct (demo_any (newState (2 * p) 0) soot []) as (s & C & V & _ & EW & EA & _).
  { cbn. rewrite L. reflexivity. } { reflexivity. } { reflexivity. } { exact NN. } { intros ? []. }
  exists m, s. split; [reflexivity|]. split; [exact C|]. destruct (quad_enum _ _ _ _ _ _ E) as (H & P1 & P2).
  split; [|split; [exact H|split; [now apply ok_sect|split; [exact V|split; [exact L|now apply reg_sect]]]]].
  split; [exact P1|]. split; [exact P2|]. split; [lia|]. rewrite EW, EA. unfold newState, zeros. cbn [wts absc]. rewrite !repeat_length.
  replace (Nat.div (2 * p) 2) with p by (rewrite Nat.mul_comm, Nat.div_mul; lia). auto.
Qed.

Lemma demo_grows nm ox : 0 < kgrow (mkMechs nm G_LL ox C_FM 1) demoGas 1 1.
Proof.
  unfold kgrow. cbn [mG growFormula]. assert (S : 0 < surface 1 1).
  { rewrite surface_sphere by lra. unfold sphere. destruct (Rlt_dec 0 (1 / 1)); [|lra]. pose proof piC_pos.
    pose proof (diam_pos (1 / 1)) as PD. apply Rmult_lt_0_compat; [lra|]. apply Rmult_lt_0_compat; [assumption|]. apply pow_lt, PD; lra. }
  destruct (Rlt_dec 0 (surface 1 1)); [|contradiction]. pose proof (sqrt_lt_R0 _ S).
  assert (0 < molarMass C2H2) by (unfold molarMass, massC, massH; cbn; lra). unfold conc. cbn [gT gRho gY demoGas].
  pose proof massC_pos. mpos.
Qed.

Lemma C36_lost m s g k N mm p eig st : 0 < N -> 0 < mm -> (2 <= p)%nat -> readyQmom m s g k (momentsOf [N] [mm] (2 * p)) p ->
  (mC k = C_NONE \/ (p <= 17)%nat) -> noticesNaN eig ->
  let w := N :: repeat 0 (p - 1) in let x := mm :: repeat 0 (p - 1) in let o := nucl k g (nodeHits k g w x) in
  exists m' s', setSourceTerms st eig m s = Ok (st, m', s') /\ nodesAre s' w x /\
    soots m' = map (fun r => Fin (oJ o * nucMass (oGas o) ^ r + condense k g w x o r + smoluchowski k g w x r)) (seq 0 (2 * p)) /\
    gasBudget m' k g o 0 0.
Proof.
  intros PN Pm Hp RD HC HN w x o. destruct (C36_mono_l m s g k N mm p eig st PN Pm Hp RD HC HN) as (m' & s' & E & ND).
  exists m', s'. split; [exact E|]. split; [exact ND|]. apply (C36_zero_l m s g k _ p eig st st m' s' w x 1 RD E ND); [lia|].
  left. unfold w, el. destruct p as [|[|p]]; try lia. reflexivity.
Qed.

Lemma two_nodes : population [1; 1] [1; 3].
Proof. split; [reflexivity|]. split; [intros y [<-|[<-|[]]]; lra|]. split; [intros y [<-|[<-|[]]]; lra|]. apply NoDup_cons; [intros [H|[]]; lra|]. apply NoDup_cons; [intros []|apply NoDup_nil]. Qed.
Lemma moments_nn w x n : length x = length w -> nonneg w -> nonneg x -> nonneg (momentsOf w x n).
Proof.
  intros L NW NX y Hy. unfold momentsOf in Hy. apply in_map_iff in Hy. destruct Hy as (r & <- & _). apply Sum_nneg. intros i Hi.
  apply Rmult_le_pos; [now apply el_nn|]. apply pow_le. now apply el_nn.
Qed.
Lemma pop_nn w x : population w x -> nonneg w /\ nonneg x.
Proof. intros (_ & A & B & _). split; intros y Hy; apply Rlt_le; auto. Qed.
Lemma momentsOf_len w x n : length (momentsOf w x n) = n.
Proof. unfold momentsOf. now rewrite map_length, seq_length. Qed.

Lemma case_two_nodes nm : nm = N_LL \/ nm = N_PAH -> exists m s g k,
  constructEnum P_QMOM 4 nm G_LL O_LL C_FM 0 T_NONE (Fin 2) 100 = Ok m /\ population [1; 1] [1; 3] /\
  readyQmom m s g k (momentsOf [1; 1] [1; 3] (2 * 2)) 2 /\ realizable 2 (momentsOf [1; 1] [1; 3] (2 * 2)) /\ mN k = nm /\ mC k <> C_NONE /\ honest eig2 2.
Proof.
  intros Hn. pose proof (pop_nn _ _ two_nodes) as (A & B).
  destruct (quad_case nm G_LL O_LL (momentsOf [1; 1] [1; 3] 4) 2 ltac:(tauto) ltac:(auto) ltac:(auto) ltac:(lia) (momentsOf_len _ _ _)) as (m & s & E & _ & RD).
  { apply moments_nn; auto. }
  exists m, s, demoGas, (mkMechs nm G_LL O_LL C_FM 1). split; [exact E|]. split; [exact two_nodes|]. split; [exact RD|].
  split; [apply pop_realizable; [exact two_nodes|cbn; lia]|]. split; [reflexivity|]. split; [discriminate|exact eig2_honest].
Qed.
Lemma case_mono_soot : exists m s g k,
  0 < 1 /\ (2 <= 2)%nat /\ readyQmom m s g k (momentsOf [1] [1] (2 * 2)) 2 /\ mC k <> C_NONE /\ noticesNaN eig2 /\ 0 < kgrow k g 1 1.
Proof.
  assert (N1 : nonneg [1]) by (intros y [<-|[]]; lra).
  destruct (quad_case N_LL G_LL O_LL (momentsOf [1] [1] 4) 2 ltac:(tauto) ltac:(auto) ltac:(auto) ltac:(lia) (momentsOf_len _ _ _)) as (m & s & E & _ & RD).
  { apply moments_nn; auto. }
  exists m, s, demoGas, (mkMechs N_LL G_LL O_LL C_FM 1). split; [lra|]. split; [lia|]. split; [exact RD|]. split; [discriminate|]. split; [exact eig2_notices|apply demo_grows].
Qed.
Lemma case_any p : (1 <= p <= 50)%nat -> exists m s g k, readyQmom m s g k (momentsOf [1] [1] (2 * p)) p /\ mC k <> C_NONE /\ 0 < kgrow k g 1 1.
Proof.
  intros Hp. assert (N1 : nonneg [1]) by (intros y [<-|[]]; lra).
  destruct (quad_case N_LL G_LL O_LL (momentsOf [1] [1] (2 * p)) p ltac:(tauto) ltac:(auto) ltac:(auto) ltac:(lia) (momentsOf_len _ _ _)) as (m & s & E & _ & RD).
  { apply moments_nn; auto. }
  exists m, s, demoGas, (mkMechs N_LL G_LL O_LL C_FM 1). split; [exact RD|]. split; [discriminate|apply demo_grows].
Qed.
Lemma case_same nm : nm = N_LL \/ nm = N_PAH -> exists (mM mQ : model (N:=XR)) s g k M0 M1, readyQmom mQ s g k [M0; M1] 1 /\ 0 < M0 /\
  sm_psd mM = P_MONO /\ noTar mM /\ sm_nucl mM = sm_nucl mQ /\ sm_grow mM = sm_grow mQ /\ sm_oxid mM = sm_oxid mQ /\ sm_coag mM = sm_coag mQ /\ pahs mM = pahs mQ /\
  mN k = nm /\ massCutoff < M1 / M0.
Proof.
  intros Hn.
  destruct (quad_case nm G_LL O_LL [1; 1] 1 ltac:(tauto) ltac:(auto) ltac:(auto) ltac:(lia) eq_refl in11) as (m & s & E & _ & RD).
  assert (EM : exists m0, constructEnum (N:=XR) P_MONO 2 nm G_LL O_LL C_FM 0 T_NONE (nZ 2) 100 = Ok m0) by (destruct Hn as [->| ->]; eexists; reflexivity).
  destruct EM as (m0 & EM). exists m0, m, s, demoGas, (mkMechs nm G_LL O_LL C_FM 1), 1, 1. pose proof cut_small.
  split; [exact RD|]. split; [lra|]. destruct (built _ _ _ _ _ _ _ _ _ _ _ EM) as (_ & P1 & _ & P2 & _ & P3 & _). split; [exact P1|]. split; [exact P2|].
  destruct (built _ _ _ _ _ _ _ _ _ _ _ E) as (_ & Q1 & _ & Q2 & _ & Q3 & _).
  unfold pahs. rewrite P3, Q3. unfold constructEnum, build in EM, E. destruct Hn as [->| ->]; cbn [mkNuclEnum mkGrowEnum mkOxidEnum mkCoagEnum mkTarEnum bind derivedCheck Nat.eqb] in EM, E;
  (match type of E with ?a = Ok _ => assert (E' : exists x, a = Ok x) by eauto end); cbn in E';
  apply (f_equal (fun r => match r with Ok x => x | _ => m0 end)) in EM; apply (f_equal (fun r => match r with Ok x => x | _ => m end)) in E;
  rewrite <- EM, <- E; repeat split; lra.
Qed.
