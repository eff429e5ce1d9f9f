(** Final forms and concrete cases for the sectional model. *)
From Coq Require Import ZArith List Bool Reals Lra Lia.
From Verif Require Import Num Defs State Coag Nucl Growth Oxid Tar SootModel Sect Qmom Calls XR XRLemmas NumLaws
  SpecChem SpecCoag SpecValid SpecRates SpecGas SpecPah SpecPsd SpecSect CoagProofs StateXR ValidProofs InterpProofs GasProofs RateProofs PsdProofs PahProofs MonoProofs MonoMain MonoCases ChemAll SectProofs SectRun SectMain SectCases SectBins.
Import ListNotations.
Local Open Scope R_scope.

Lemma mBins_nth (m : model (N:=XR)) c F ns j : isSect m (geometric c F ns) F -> (j < ns)%nat ->
  nth_error (sm_mBins m) j = Some (Fin (IZR c * F ^ j * (massC / avogadro))).
Proof.
  intros (_ & _ & E & _) H. rewrite E. unfold geometric. rewrite map_map. exact (nth_error_seqmap (fun j => Fin (IZR c * F ^ j * (massC / avogadro))) ns j H).
Qed.
Lemma C28p nsoot nu gr ox co Ntar ta F c (m : model (N:=XR)) : (0 < c)%Z -> 1 < F ->
  constructPtr P_SECT nsoot nu gr ox co Ntar ta (Fin F) c = Ok m ->
  (2 <= nsoot)%nat /\ length (sm_mBins m) = nsoot /\
  (forall j, (j < nsoot)%nat -> nth_error (sm_mBins m) j = Some (Fin (IZR c * F ^ j * (massC / avogadro)))) /\
  isSect m (geometric c F nsoot) F /\ goodBins (geometric c F nsoot).
Proof.
  intros Hc HF H. destruct (C28_ptr _ _ _ _ _ _ _ _ _ _ Hc HF H) as (A & B). split; [destruct B as (B & _); rewrite geo_len in B; auto|].
  split; [destruct A as (_ & _ & E & _); rewrite E, map_length; apply geo_len|]. split; [intros; now apply mBins_nth with (ns:=nsoot)|auto].
Qed.
Lemma C28e nsoot n gr ox co Ntar ta F c (m : model (N:=XR)) : (0 < c)%Z -> 1 < F ->
  constructEnum P_SECT nsoot n gr ox co Ntar ta (Fin F) c = Ok m ->
  (2 <= nsoot)%nat /\ length (sm_mBins m) = nsoot /\
  (forall j, (j < nsoot)%nat -> nth_error (sm_mBins m) j = Some (Fin (IZR c * F ^ j * (massC / avogadro)))) /\
  isSect m (geometric c F nsoot) F /\ goodBins (geometric c F nsoot) /\ hasAll m (mkMechs n gr ox co 1).
Proof.
  intros Hc HF H. destruct (C28_enum _ _ _ _ _ _ _ _ _ _ Hc HF H) as (A & B & C). split; [destruct B as (B & _); rewrite geo_len in B; auto|].
  split; [destruct A as (_ & _ & E & _); rewrite E, map_length; apply geo_len|]. split; [intros; now apply mBins_nth with (ns:=nsoot)|auto].
Qed.

Lemma el_map_seq f n j : (j < n)%nat -> el (map f (seq 0 n)) j = f j.
Proof. intros. now rewrite el_seq. Qed.
Section Bal2.
Context (m m' : model (N:=XR)) (s s' : state (N:=XR)) (g : gas) (k : mechs) (b n : list R) (F c : R) (st st' : option xr) (eig : Qmom.eigSolver (N:=XR)).
Context (HS : isSect m b F) (G : goodBins b) (HM : hasAll m k) (OM : okAll k) (V : valid s g n) (Ln : length n = length b).
Context (RG : regular k g (number n) (mass b n)) (HC : located st F c) (HE : setSourceTerms st eig m s = Ok (st', m', s')).
Let o := nucl k g (dimerHits k g b n).
Lemma mass_q f : mass b (map f (seq 0 (length b))) = Sum (length b) (fun j => el b j * f j).
Proof.
  unfold mass. rewrite dot_seq by now rewrite map_length, seq_length. rewrite map_length, seq_length. unfold Sum. f_equal. apply map_ext_in.
  intros j Hj. apply in_seq in Hj. change (nth j (map f (seq 0 (length b))) 0) with (el (map f (seq 0 (length b))) j). rewrite el_map_seq by lia.
  unfold el. ring.
Qed.
Lemma C29_ : exists q, soots m' = map Fin q /\ length q = length b /\
  mass b q = oN1 o + (kgrow k g (number n) (mass b n) - koxid k g (number n) (mass b n)) * totalArea b n
             + oConc o * oMass o * Sum (length b) (fun j => kernel k g (oMass o) (el b j) * el n j) /\
  gasBudget m' k g o (kgrow k g (number n) (mass b n) * totalArea b n) (koxid k g (number n) (mass b n) * totalArea b n) /\
  pahs m' = pahSourcesOf k g (pahs m).
Proof.
  destruct (sect_result m m' s s' g k b n F c st st' eig HS G HM OM V Ln RG HC HE) as (A & B & D & _).
  eexists. split; [exact A|]. split; [now rewrite map_length, seq_length|]. split; [|auto].
  rewrite mass_q. rewrite (src_mass s g k b n c G OM V Ln). fold o.
  rewrite <- Sum_scal. apply f_equal2; [reflexivity|]. apply Sum_ext. intros j _. unfold condensed. ring.
Qed.
Lemma C30_ : exists q, soots m' = map Fin q /\ length q = length b /\
  number q = oN1 o / el b 0
  + (kgrow k g (number n) (mass b n) * binArea b n (lastBin b) + condensed k g b n o (lastBin b)) / el b (lastBin b)
  - koxid k g (number n) (mass b n) * binArea b n 0 / el b 0
  - 1 / 2 * Sum (length b) (fun i => Sum (length b) (fun j => kernel k g (el b i) (el b j) * el n i * el n j))
  + 1 / 2 * Sum (length b) (fun i => Sum (length b) (fun j => if Nat.leb (lastBin b) (binOf c b (el b i + el b j))
        then kernel k g (el b i) (el b j) * el n i * el n j * ((el b i + el b j) / el b (lastBin b) - 1) else 0)).
Proof.
  destruct (sect_result m m' s s' g k b n F c st st' eig HS G HM OM V Ln RG HC HE) as (A & _).
  eexists. split; [exact A|]. split; [now rewrite map_length, seq_length|].
  exact (src_number g k b n c G Ln).
Qed.
Lemma C30_only : mN k = N_NONE -> mG k = G_NONE -> mO k = O_NONE -> exists q, soots m' = map Fin q /\ length q = length b /\
  mass b q = 0 /\
  ((forall i j, (i < length b)%nat -> (j < length b)%nat -> el n i <> 0 -> el n j <> 0 -> (binOf c b (el b i + el b j) < lastBin b)%nat) ->
   number q = - (1 / 2) * Sum (length b) (fun i => Sum (length b) (fun j => kernel k g (el b i) (el b j) * el n i * el n j))).
Proof.
  intros N1 N2 N3. destruct C29_ as (q & Q1 & Q2 & Q3 & _). destruct C30_ as (q' & Q4 & _ & Q5).
  assert (q' = q). { rewrite Q1 in Q4. clear - Q4. revert q' Q4. induction q as [|x q IH]; intros [|y q'] E; try discriminate; auto.
    assert (H1 := f_equal (fun l => match l with Fin a :: _ => a | _ => 0 end) E). cbn in H1. assert (H2 := f_equal (fun l => tl l) E). cbn [map tl] in H2. f_equal; auto. }
  subst q'. exists q. split; [exact Q1|]. split; [exact Q2|].
  assert (EO : o = mkOut 0 g 0 0). { unfold o, nucl, isP. rewrite N1. unfold Jnuc. rewrite N1. reflexivity. }
  assert (EG : kgrow k g (number n) (mass b n) = 0) by (unfold kgrow; rewrite N2; reflexivity).
  assert (EX : koxid k g (number n) (mass b n) = 0) by (unfold koxid; rewrite N3; reflexivity).
  split.
  - rewrite Q3, EG, EX, EO. unfold oN1. cbn [oJ oGas oConc oMass]. ring.
  - intros NL. rewrite Q5, EG, EX, EO. unfold condensed, oN1. cbn [oJ oGas oConc oMass].
    rewrite (Sum_0 (length b) (fun i => Sum (length b) (fun j => if Nat.leb _ _ then _ else 0))).
    + unfold Rdiv. ring.
    + intros i Hi. apply Sum_0. intros j Hj. destruct (Nat.leb_spec (lastBin b) (binOf c b (el b i + el b j))) as [L|L]; [|reflexivity].
      destruct (Req_dec (el n i) 0) as [->|E1]; [ring|]. destruct (Req_dec (el n j) 0) as [->|E2]; [ring|].
      specialize (NL i j Hi Hj E1 E2). lia.
Qed.
End Bal2.

(** ** C31, C32 *)
Lemma own_located st F : doubleAbove1 F -> ownConst st F -> located st F (/ ln F).
Proof. intros H [->| ->]; [right|left; reflexivity]. pose proof (double_gt1 F H). repeat split; lra. Qed.
Section Own.
Context (m : model (N:=XR)) (s : state (N:=XR)) (g : gas) (k : mechs) (c0 : Z) (F : R) (ns : nat) (n : list R) (st : option xr) (eig : Qmom.eigSolver (N:=XR)).
Context (Hc : (0 < c0)%Z) (HF : doubleAbove1 F) (Hs : sane ns).
Let b := geometric c0 F ns.
Context (HS : isSect m b F) (HM : hasAll m k) (OM : okAll k) (V : valid s g n) (Ln : length n = ns).
Context (RG : regular k g (number n) (mass b n)) (HO : ownConst st F).
Let o := nucl k g (dimerHits k g b n).
Lemma C31_own_ : exists m' s' st', setSourceTerms st eig m s = Ok (st', m', s') /\ ownConst st' F /\ isSect m' b F /\ hasAll m' k /\
    soots m' = map Fin (map (sectSource k g b n (/ ln F) o) (seq 0 ns)).
Proof.
  pose proof (G_geo c0 F ns Hc HF Hs) as G. fold b in G. assert (EL : length b = ns) by apply geo_len.
  destruct (sect_run m s g k b n F HS G HM OM V ltac:(congruence) RG st (/ ln F) (own_located st F HF HO) eig (fun _ => geo_fits c0 F ns Hc HF Hs)) as (m1 & E & A1 & A2 & A3 & A4 & A5).
  exists m1. do 2 eexists. split; [exact E|]. split; [destruct (coagOn m); [right; reflexivity|exact HO]|]. split; [exact A5|]. split; [exact A4|].
  rewrite A1, map_map, EL. reflexivity.
Qed.
Lemma C32_ j : (j < ns)%nat -> el n j = 0 -> exists m' s' st' x, setSourceTerms st eig m s = Ok (st', m', s') /\ ownConst st' F /\
    nth_error (soots m') j = Some (Fin x) /\ 0 <= x.
Proof.
  intros Hj E. destruct C31_own_ as (m' & s' & st' & A & B & _ & _ & D). exists m', s', st'.
  eexists. split; [exact A|]. split; [exact B|]. rewrite D, map_map. split; [exact (nth_error_seqmap (fun j => Fin (sectSource k g b n (/ ln F) o j)) ns j Hj)|].
  apply (source_nn c0 F ns Hc HF Hs s g k n V OM); auto.
Qed.
End Own.

(** a second model in the process uses the constant of the first *)
Lemma C31_shared m1 m1' s1 s1' g1 k1 b1 n1 F1 eig st1 :
  isSect m1 b1 F1 -> goodBins b1 -> hasAll m1 k1 -> okAll k1 -> mC k1 <> C_NONE -> valid s1 g1 n1 -> length n1 = length b1 ->
  regular k1 g1 (number n1) (mass b1 n1) -> 0 < F1 -> F1 <> 1 ->
  setSourceTerms None eig m1 s1 = Ok (st1, m1', s1') -> st1 = Some (Fin (/ ln F1)).
Proof.
  intros HS G HM OM NC V Ln RG P1 P2 HE.
  destruct (sect_result m1 m1' s1 s1' g1 k1 b1 n1 F1 (/ ln F1) None st1 eig HS G HM OM V Ln RG) as (_ & _ & _ & _ & _ & _ & E).
  - right. auto.
  - exact HE.
  - rewrite E. assert (coagOn m1 = true). { unfold coagOn. destruct HM as (_ & _ & _ & EC). rewrite EC. cbn. destruct (mC k1); congruence. }
    rewrite H. reflexivity.
Qed.
Section Two.
Context (m2 : model (N:=XR)) (s2 : state (N:=XR)) (g : gas) (k : mechs) (c0 : Z) (n0 : R) (eig : Qmom.eigSolver (N:=XR)).
Let b := geometric c0 4 4.
Let n := [n0; 0; 0; 0].
Let c := / ln 2.
Context (Hc : (0 < c0)%Z) (HS : isSect m2 b 4) (HM : hasAll m2 k) (OM : okAll k) (NC : mC k <> C_NONE) (V : valid s2 g n).
Context (RG : regular k g (number n) (mass b n)) (Hn : 0 < n0) (HB : massCutoff < el b 0).
Lemma b_val j : (j < 4)%nat -> el b j = 4 ^ j * (IZR c0 * (massC / avogadro)).
Proof. intros. unfold b. rewrite geo_el by auto. ring. Qed.
Lemma ln2_pos : 0 < ln 2. Proof. rewrite <- ln_1. apply ln_increasing; lra. Qed.
Lemma ln4 : ln 4 = 2 * ln 2. Proof. replace 4 with (2 * 2) by ring. rewrite ln_mult by lra. ring. Qed.
Lemma two_G : goodBins b. Proof. apply geo_good; [lia|auto|lra]. Qed.
Lemma two_fits : fits c b.
Proof.
  intros i j Hi Hj. unfold b in Hi, Hj. rewrite geo_len in Hi, Hj. pose proof ln2_pos as L. pose proof unit_pos as U. apply (IZR_lt 0) in Hc.
  rewrite !b_val by lia. replace ((4 ^ i * (IZR c0 * (massC / avogadro)) + 4 ^ j * (IZR c0 * (massC / avogadro))) / (4 ^ 0 * (IZR c0 * (massC / avogadro)))) with (4 ^ i + 4 ^ j).
  2: { cbn [pow]. field. repeat split; nz. }
  assert (B : forall p, (p < 4)%nat -> 1 <= 4 ^ p <= 64).
  { intros p Hp. destruct p as [|[|[|[|p]]]]; try lia; cbn; lra. }
  pose proof (B i Hi). pose proof (B j Hj). set (x := 4 ^ i + 4 ^ j) in *. assert (X : 2 <= x <= 128) by (unfold x; lra).
  assert (L1 : 0 <= ln x <= 7 * ln 2).
  { split.
    - rewrite <- ln_1. apply Rlt_le, ln_increasing; lra.
    - replace (7 * ln 2) with (ln (2 ^ 7)) by (rewrite ln_pow2 || (change 2 with (INR 2); rewrite <- Rpower_pow by (cbn; lra); unfold Rpower; rewrite ln_exp; cbn; ring)).
      destruct (Req_dec x (2 ^ 7)) as [->|]; [lra|]. apply Rlt_le, ln_increasing; [lra|]. cbn in *. lra. }
  unfold c. assert (0 <= / ln 2 * ln x <= 7).
  { split; [apply Rmult_le_pos; [apply Rlt_le, Rinv_0_lt_compat|]; lra|]. apply Rmult_le_reg_l with (ln 2); [lra|]. rewrite <- Rmult_assoc, Rinv_r by lra. lra. }
  split; [lra|]. apply Rle_lt_trans with 7; [lra|]. apply IZR_lt. reflexivity.
Qed.
Lemma two_bin : binOf c b (el b 0 + el b 0) = 1%nat.
Proof.
  unfold binOf. pose proof ln2_pos. pose proof (bins_pos b two_G 0 ltac:(unfold b; rewrite geo_len; lia)).
  replace ((el b 0 + el b 0) / el b 0) with 2 by (field; lra). unfold c. rewrite Rinv_l by lra.
  replace (Int_part 1) with 1%Z; [reflexivity|]. symmetry. destruct (base_Int_part 1) as (I1 & I2).
  apply Z.le_antisymm; [apply le_IZR; lra|]. assert (K : 0 < IZR (Int_part 1)) by lra. apply (lt_IZR 0) in K. lia.
Qed.
Lemma two_share : shareLow b 1 (el b 0 + el b 0) = 7 / 6.
Proof.
  unfold shareLow. rewrite !b_val by lia. pose proof unit_pos. apply (IZR_lt 0) in Hc.
  assert (P : 0 < IZR c0 * (massC / avogadro)) by (apply Rmult_lt_0_compat; auto). revert P. generalize (IZR c0 * (massC / avogadro)). intros u P.
  cbn [pow]. field. lra.
Qed.
Lemma two_source : sectSource k g b n c (nucl k g (dimerHits k g b n)) 2 = - (1 / 12) * kernel k g (el b 0) (el b 0) * n0 ^ 2.
Proof.
  unfold sectSource. cbv zeta. set (o := nucl k g (dimerHits k g b n)).
  assert (Z1 : forall j, (j <> 0)%nat -> el n j = 0) by (intros [|[|[|[|j]]]] H; cbn; try lia; auto; destruct j; auto).
  assert (U : forall r, r 1%nat = 0 -> r 2%nat = 0 -> moveUp b r 2 = 0).
  { intros r E1 E2. unfold moveUp. cbn [Nat.eqb Nat.sub]. rewrite E1, E2. unfold b. rewrite geo_len. cbn [Nat.eqb]. unfold Rdiv. ring. }
  rewrite (U (fun l => kgrow k g (number n) (mass b n) * binArea b n l)) by (unfold binArea; rewrite Z1 by lia; ring).
  rewrite (U (condensed k g b n o)) by (unfold condensed; rewrite Z1 by lia; ring).
  assert (D : moveDown b (fun l => koxid k g (number n) (mass b n) * binArea b n l) 2 = 0).
  { unfold moveDown. unfold b at 1. rewrite geo_len. cbn [Nat.eqb]. unfold binArea. rewrite !Z1 by lia. unfold Rdiv. ring. }
  rewrite D. cbn [Nat.eqb]. unfold coagAt. cbv zeta. assert (EL : length b = 4%nat) by apply geo_len. rewrite EL.
  rewrite (Sum_0 4 (fun l => kernel k g (el b 2) (el b l) * el n 2 * el n l)) by (intros; rewrite (Z1 2%nat) by lia; ring).
  rewrite (Sum_one 4 0).
  - rewrite (Sum_one 4 0).
    + rewrite two_bin. unfold credit. unfold lastBin. rewrite EL. cbn [Nat.leb Nat.sub Nat.eqb]. rewrite two_share. change (el n 0) with n0. field.
    + lia.
    + intros j _ E. rewrite (Z1 j E). ring.
  - lia.
  - intros i _ E. apply Sum_0. intros j _. rewrite (Z1 i E). ring.
Qed.
Lemma C31_foreign : exists m' s' x, setSourceTerms (Some (Fin c)) eig m2 s2 = Ok (Some (Fin c), m', s') /\
  nth_error (soots m') 2 = Some (Fin x) /\ x < 0 /\ x = - (1 / 12) * kernel k g (el b 0) (el b 0) * n0 ^ 2.
Proof.
  destruct (sect_run m2 s2 g k b n 4 HS two_G HM OM V ltac:(unfold b; rewrite geo_len; reflexivity) RG (Some (Fin c)) c (or_introl eq_refl) eig (fun _ => two_fits)) as (m1 & E & A1 & _).
  exists m1. do 2 eexists. split; [rewrite E; destruct (coagOn m2); reflexivity|]. split; [rewrite A1; exact (nth_error_seqmap (fun j => Fin (sectSource k g b n c (nucl k g (dimerHits k g b n)) j)) (length b) 2 ltac:(unfold b; rewrite geo_len; lia))|].
  rewrite two_source. split; [|reflexivity]. pose proof OM as (_ & _ & _ & _ & OC & OF).
  pose proof (kernel_pos s2 g n k (el b 0) (el b 0) V OF NC OC HB HB). assert (0 < n0 ^ 2) by (apply pow_lt; auto).
  assert (0 < kernel k g (el b 0) (el b 0) * n0 ^ 2) by (apply Rmult_lt_0_compat; auto). lra.
Qed.
End Two.
Lemma C31_refuted m1 m1' s1 s1' g1 k1 b1 n1 eig st1 m2 s2 g k c0 n0 :
  isSect m1 b1 2 -> goodBins b1 -> hasAll m1 k1 -> okAll k1 -> mC k1 <> C_NONE -> valid s1 g1 n1 -> length n1 = length b1 ->
  regular k1 g1 (number n1) (mass b1 n1) -> setSourceTerms None eig m1 s1 = Ok (st1, m1', s1') ->
  let b := geometric c0 4 4 in let n := [n0; 0; 0; 0] in
  (0 < c0)%Z -> isSect m2 b 4 -> hasAll m2 k -> okAll k -> mC k <> C_NONE -> valid s2 g n ->
  regular k g (number n) (mass b n) -> 0 < n0 -> massCutoff < el b 0 ->
  exists m' s' x, setSourceTerms st1 eig m2 s2 = Ok (st1, m', s') /\ nth_error (soots m') 2 = Some (Fin x) /\ x < 0.
Proof.
  intros H1 H2 H3 H4 H5 H6 H7 H8 H9 b n. intros. rewrite (C31_shared m1 m1' s1 s1' g1 k1 b1 n1 2 eig st1 H1 H2 H3 H4 H5 H6 H7 H8 ltac:(lra) ltac:(lra) H9).
  destruct (C31_foreign m2 s2 g k c0 n0 eig) as (m' & s' & x & A & B & C & _); auto. eauto 10.
Qed.

(** ** C56: the growth factor is not checked *)
Lemma chem_keeps {N : Num} coll (m : model (N:=N)) s j g x m1 s1 : chemRates coll m s = Ok (j, g, x, m1, s1) ->
  sm_nsoot m1 = sm_nsoot m /\ sm_mBins m1 = sm_mBins m /\ sm_coag m1 = sm_coag m /\
  forall F b, sm_priv m = PrivSect F b -> exists b1, sm_priv m1 = PrivSect F b1.
Proof.
  unfold chemRates, runNucl. intros H. destruct (nuclRate coll (sm_nucl m) s) as [[[[j1 nu] s2] e]| |]; cbn [bind] in H; try discriminate.
  destruct (growRate _ _ _); cbn [bind] in H; try discriminate. destruct (oxidRate _ _ _); cbn [bind] in H; try discriminate.
  assert (E : storeNucl m nu e = m1) by congruence. rewrite <- E. clear. unfold storeNucl, with_nuclObj. cbn [sm_priv sm_nsoot sm_mBins sm_coag].
  destruct (sm_priv m) as [|F0 b0|d|d]; repeat split; try reflexivity; try (destruct e as [[|? [|? ?]]|]; reflexivity).
  all: intros F b P; try discriminate. destruct e; cbn; [|eauto]. assert (F0 = F) by congruence. subst. eauto.
Qed.
Lemma C56_ m s eig F b0 beta : sm_psd m = P_SECT -> sm_priv m = PrivSect (Fin F) beta -> coagOn m = true -> (1 <= sm_nsoot m)%nat ->
  nth 0 (sm_mBins m) (Fin 0) = Fin b0 -> 0 < b0 -> F < 0 \/ 1 / 2 <= F <= 1 -> forall r, setSourceTerms (N:=XR) None eig m s <> Ok r.
Proof.
  intros HP HV HC HN HB Pb HF r E. unfold setSourceTerms in E. rewrite HP in E. unfold setSourceTermsSECT in E.
  destruct (chemRates (collSECT m) m s) as [[[[[j g] x] m1] s1]| |] eqn:EC; cbn [bind] in E; try discriminate.
  destruct (chem_keeps _ _ _ _ _ _ _ _ EC) as (K1 & K2 & K3 & K4). destruct (K4 _ _ HV) as (b1 & KV). clear K4 EC.
  rewrite K1, K2, KV in E. destruct (readSoot (sm_nsoot m) s1) as [nv| |]; cbn [bind] in E; try discriminate. cbv zeta iota in E.
  assert (HC1 : coagOn m1 = true) by (unfold coagOn; rewrite K3; exact HC). rewrite HC1 in E. cbn [ilnFof] in E.
  destruct (sectCoag (sm_coag m1) s1 (sm_nsoot m) (at_ (sm_mBins m)) (at_ nv) _) as [v| |] eqn:ES; cbn [bind] in E; try discriminate. clear E.
  unfold sectCoag in ES.
  assert (I0 : In 0%nat (seq 0 (sm_nsoot m))) by (apply in_seq; lia).
  destruct (foldM_ok_all _ _ _ _ ES 0%nat I0) as (a1 & v1 & E1). rewrite Nat.sub_0_r in E1.
  destruct (foldM_ok_all _ _ _ _ E1 0%nat I0) as (a2 & v2 & E2). unfold sectPair in E2. cbv zeta in E2.
  change (at_ (N:=XR) (sm_mBins m) 0) with (nth 0 (sm_mBins m) (Fin 0)) in E2. rewrite HB in E2.
  assert (EL : @nlog XR (@ndiv XR (@nadd XR (Fin b0) (Fin b0)) (Fin b0)) = Fin (ln 2)).
  { change (@nadd XR (Fin b0) (Fin b0)) with (Fin (b0 + b0)). change (@ndiv XR) with xdiv. rewrite xdiv_fin by lra.
    replace ((b0 + b0) / b0) with 2 by (field; lra). change (@nlog XR) with xlog. unfold xlog. destruct (Rlt_dec 0 2); [reflexivity|lra]. }
  rewrite EL in E2. change (@nZ XR 1) with (Fin 1) in E2. change (@ndiv XR) with xdiv in E2. change (@nlog XR) with xlog in E2.
  change (@nmul XR) with xmul in E2. change (@ntrunc XR) with xtrunc in E2.
  assert (T : xtrunc (xmul (xdiv (Fin 1) (xlog (Fin F))) (Fin (ln 2))) = None).
  { pose proof ln2_pos as L2. unfold xlog. destruct (Rlt_dec 0 F) as [PF|PF].
    - unfold xdiv. destruct (Req_EM_T (ln F) 0) as [E0|E0].
      + unfold signed. destruct (Rlt_dec 0 1); [|lra]. cbn [xmul]. unfold signed. destruct (Rlt_dec 0 (ln 2)); [reflexivity|lra].
      + cbn [xmul]. unfold xtrunc. destruct (Rlt_dec (-1) (1 / ln F * ln 2)) as [A|A]; [|reflexivity]. exfalso.
        assert (LF : - ln 2 <= ln F < 0).
        { split.
          - rewrite <- ln_Rinv by lra. destruct (Req_dec (/ 2) F) as [<-|]; [lra|]. apply Rlt_le, ln_increasing; lra.
          - assert (ln F <= 0); [|lra]. rewrite <- ln_1. destruct (Req_dec F 1) as [->|]; [lra|]. apply Rlt_le, ln_increasing; lra. }
        assert (K : (-1) * ln F > 1 / ln F * ln 2 * ln F) by (apply Rmult_lt_gt_compat_neg_l' || (apply Rlt_gt; rewrite !(Rmult_comm _ (ln F)); apply Rmult_lt_gt_compat_neg_l; lra)).
        replace (1 / ln F * ln 2 * ln F) with (ln 2) in K by (field; lra). lra.
    - destruct (Req_EM_T F 0); [lra|]. reflexivity. }
  rewrite T in E2. discriminate.
Qed.
Lemma bin0_val nsoot F c : (2 <= nsoot)%nat -> nth 0 (set_mBins (N:=XR) nsoot (Fin F) c) (Fin 0) = Fin (IZR c * (massC / avogadro)).
Proof.
  intros H. unfold set_mBins. destruct nsoot as [|p]; [lia|]. cbn [seq map nth].
  assert (EP : @npow XR (Fin F) (nn 0) = Fin 1).
  { unfold nn. change (@nlit XR (Z.of_nat 0) 0) with (Fin 0). change (@npow XR) with xpow. unfold xpow. destruct (Req_EM_T 0 0); [reflexivity|lra]. }
  unfold nZ. rewrite EP. xsimp. vals. f_equal. unfold rlit. field. nz.
Qed.
Lemma C56_build newed nsoot nu gr ox co Ntar ta F c (m : model (N:=XR)) : (0 < c)%Z -> co_mech co <> C_NONE ->
  F < 0 \/ 1 / 2 <= F <= 1 -> build newed P_SECT nsoot nu gr ox co Ntar ta (Fin F) c = Ok m ->
  forall eig s r, setSourceTerms None eig m s <> Ok r.
Proof.
  intros Hc HC HF H. unfold build in H.
  assert (D : derivedCheck P_SECT nsoot (co_mech co) (ta_mech ta) = Ok tt -> (2 <= nsoot)%nat).
  { unfold derivedCheck. destruct (Nat.ltb_spec nsoot 2); [discriminate|auto]. }
  destruct (derivedCheck P_SECT nsoot (co_mech co) (ta_mech ta)) as [[]| |]; cbn [bind] in H; try discriminate.
  apply (f_equal (fun r => match r with Ok x => x | _ => m end)) in H. rewrite <- H. clear H.
  pose proof (D eq_refl) as Hn. intros eig s r. eapply C56_ with (F:=F) (b0:=IZR c * (massC / avogadro)).
  - reflexivity.
  - reflexivity.
  - unfold coagOn. cbn [sm_coag]. destruct (co_mech co); congruence.
  - cbn [sm_nsoot]. lia.
  - cbn [sm_mBins initBins]. now apply bin0_val.
  - apply Rmult_lt_0_compat; [now apply (IZR_lt 0)|exact unit_pos].
  - exact HF.
Qed.
Lemma C56_enum nsoot n gr ox co Ntar ta F c (m : model (N:=XR)) : (0 < c)%Z -> co <> C_NONE ->
  F < 0 \/ 1 / 2 <= F <= 1 -> constructEnum P_SECT nsoot n gr ox co Ntar ta (Fin F) c = Ok m ->
  forall eig s r, setSourceTerms None eig m s <> Ok r.
Proof. intros Hc HC HF H. apply enum_build in H. eapply C56_build; eauto. cbn. destruct co; cbn; congruence. Qed.
Lemma C56_ptr nsoot nu gr ox co Ntar ta F c (m : model (N:=XR)) : (0 < c)%Z -> co_mech co <> C_NONE ->
  F < 0 \/ 1 / 2 <= F <= 1 -> constructPtr P_SECT nsoot nu gr ox co Ntar ta (Fin F) c = Ok m ->
  forall eig s r, setSourceTerms None eig m s <> Ok r.
Proof. apply C56_build. Qed.
Lemma C56_accepts (F : xr) : exists m, constructEnum (N:=XR) P_SECT 4 N_LL G_LL O_LL C_FM 0 T_NONE F 100 = Ok m.
Proof. eexists. reflexivity. Qed.

(** ** concrete cases *)
Lemma sect_built nm gr ox F : nm = N_LL \/ nm = N_PAH \/ nm = N_NONE -> gr = G_LL \/ gr = G_NONE -> ox = O_LL \/ ox = O_NONE -> 1 < F ->
  exists m, isSect m (geometric 100 F 4) F /\ goodBins (geometric 100 F 4) /\ hasAll m (mkMechs nm gr ox C_FM 1).
Proof.
  intros Hn Hg Ho HF. assert (E : exists m, constructEnum (N:=XR) P_SECT 4 nm gr ox C_FM 0 T_NONE (Fin F) 100 = Ok m).
  { destruct Hn as [->|[->| ->]], Hg as [->| ->], Ho as [->| ->]; eexists; reflexivity. }
  destruct E as (m & E). destruct (C28_enum _ _ _ _ _ _ _ _ _ _ (eq_refl : (0 < 100)%Z) HF E) as (A & B & C). eauto.
Qed.
Lemma ok_sect nm gr ox : nm = N_LL \/ nm = N_PAH \/ nm = N_NONE -> gr = G_LL \/ gr = G_NONE -> ox = O_LL \/ ox = O_NONE -> okAll (mkMechs nm gr ox C_FM 1).
Proof.
  intros Hn Hg Ho. destruct Hn as [->|[->| ->]], Hg as [->| ->], Ho as [->| ->]; (split; [|cbn; repeat split; try discriminate; lra]); try (right; reflexivity); left; unfold gasOnly; cbn; repeat split; discriminate.
Qed.
Lemma sect_state n : length n = 4%nat -> (forall x, In x n -> 0 <= x) -> exists s, valid s demoGas n.
Proof.
  intros L H. destruct (demo_any (newState 4 0) n []) as (s & _ & V & _); auto; [rewrite L; reflexivity|intros ? []|eauto].
Qed.
Lemma reg_sect nm gr ox a b : gr = G_LL \/ gr = G_NONE -> ox = O_LL \/ ox = O_NONE -> regular (mkMechs nm gr ox C_FM 1) demoGas a b.
Proof. intros Hg Ho [K|K]; cbn in K; destruct Hg, Ho; congruence. Qed.
Lemma double2 : doubleAbove1 2.
Proof. unfold doubleAbove1. assert (/ 2 ^ 52 <= 1); [|lra]. rewrite <- Rinv_1. apply Rinv_le_contravar; [lra|]. apply pow_R1_Rle. lra. Qed.
Lemma sane4 : sane 4. Proof. split; [lia|cbn; lia]. Qed.
Lemma case_own nm : nm = N_LL \/ nm = N_PAH -> exists (m : model (N:=XR)) s g k n, let b := geometric 100 2 4 in
  isSect m b 2 /\ hasAll m k /\ okAll k /\ mN k = nm /\ mC k <> C_NONE /\ valid s g n /\ length n = 4%nat /\
  regular k g (number n) (mass b n) /\ el n 0 = 1 /\ el n 1 = 0 /\ el n 2 = 1 /\ goodBins b /\ doubleAbove1 2 /\ sane 4 /\
  forall eig, exists r, setSourceTerms None eig m s = Ok r.
Proof.
  intros Hn. assert (Hn' : nm = N_LL \/ nm = N_PAH \/ nm = N_NONE) by tauto.
  destruct (sect_built nm G_LL O_LL 2 Hn' ltac:(auto) ltac:(auto) ltac:(lra)) as (m & A & B & C).
  destruct (sect_state [1; 0; 1; 0] eq_refl) as (s & V). { intros x [<-|[<-|[<-|[<-|[]]]]]; lra. }
  pose proof (ok_sect nm G_LL O_LL Hn' ltac:(auto) ltac:(auto)) as D.
  pose proof (reg_sect nm G_LL O_LL (number [1; 0; 1; 0]) (mass (geometric 100 2 4) [1; 0; 1; 0]) ltac:(auto) ltac:(auto)) as RG.
  exists m, s, demoGas, (mkMechs nm G_LL O_LL C_FM 1), [1; 0; 1; 0]. cbv zeta.
  do 3 (split; [assumption|]). split; [reflexivity|]. split; [discriminate|]. split; [assumption|]. split; [reflexivity|]. split; [assumption|].
  do 3 (split; [reflexivity|]). split; [assumption|]. split; [exact double2|]. split; [exact sane4|]. intros eig.
  destruct (C31_own_ m s demoGas _ 100 2 4 _ None eig ltac:(lia) double2 sane4 A C D V eq_refl RG (or_introl eq_refl)) as (m' & s' & st' & E & _).
  eexists. exact E.
Qed.
Lemma case_only : exists (m : model (N:=XR)) s g k n, let b := geometric 100 2 4 in
  isSect m b 2 /\ goodBins b /\ hasAll m k /\ okAll k /\ valid s g n /\ length n = length b /\ regular k g (number n) (mass b n) /\
  mN k = N_NONE /\ mG k = G_NONE /\ mO k = O_NONE /\ mC k <> C_NONE /\ located None 2 (/ ln 2) /\ el n 0 = 1 /\
  (forall i j, (i < length b)%nat -> (j < length b)%nat -> el n i <> 0 -> el n j <> 0 -> (binOf (/ ln 2) b (el b i + el b j) < lastBin b)%nat) /\
  forall eig, exists r, setSourceTerms None eig m s = Ok r.
Proof.
  destruct (sect_built N_NONE G_NONE O_NONE 2 ltac:(auto) ltac:(auto) ltac:(auto) ltac:(lra)) as (m & A & B & C).
  destruct (sect_state [1; 0; 0; 0] eq_refl) as (s & V). { intros x [<-|[<-|[<-|[<-|[]]]]]; lra. }
  pose proof (ok_sect N_NONE G_NONE O_NONE ltac:(auto) ltac:(auto) ltac:(auto)) as D.
  pose proof (reg_sect N_NONE G_NONE O_NONE (number [1; 0; 0; 0]) (mass (geometric 100 2 4) [1; 0; 0; 0]) ltac:(auto) ltac:(auto)) as RG.
  exists m, s, demoGas, (mkMechs N_NONE G_NONE O_NONE C_FM 1), [1; 0; 0; 0]. cbv zeta.
  do 5 (split; [assumption|]). split; [rewrite geo_len; reflexivity|]. split; [assumption|]. do 3 (split; [reflexivity|]). split; [discriminate|].
  split; [right; repeat split; lra|]. split; [reflexivity|]. split.
  - intros i j Hi Hj Ei Ej. assert (Z : forall q, el [1; 0; 0; 0] q <> 0 -> q = 0%nat).
    { intros [|[|[|[|q]]]] H; cbn in H; auto; try (exfalso; apply H; reflexivity). exfalso. apply H. destruct q; reflexivity. }
    rewrite (Z i Ei), (Z j Ej). unfold lastBin. rewrite geo_len.
    pose proof (bin_brackets 100 2 4 ltac:(lia) double2 0 0 ltac:(lia) ltac:(lia)) as (H1 & _). cbv zeta in H1.
    destruct (Nat.lt_ge_cases (binOf (/ ln 2) (geometric 100 2 4) (el (geometric 100 2 4) 0 + el (geometric 100 2 4) 0)) (4 - 1)) as [L|L]; [exact L|exfalso].
    assert (8 <= 2 ^ binOf (/ ln 2) (geometric 100 2 4) (el (geometric 100 2 4) 0 + el (geometric 100 2 4) 0)).
    { replace 8 with (2 ^ 3) by (cbn; lra). apply Rle_pow; [lra|exact L]. }
    change (2 ^ 0 + 2 ^ 0) with (1 + 1) in H1. lra.
  - intros eig. destruct (C31_own_ m s demoGas _ 100 2 4 _ None eig ltac:(lia) double2 sane4 A C D V eq_refl RG (or_introl eq_refl)) as (m' & s' & st' & E & _).
    eexists. exact E.
Qed.
Lemma cut_100 F : massCutoff < el (geometric 100 F 4) 0.
Proof.
  rewrite geo_el by lia. cbn [pow]. Local Transparent massCutoff massC avogadro. unfold massCutoff, massC, avogadro. Local Opaque massCutoff massC avogadro.
  change (602214076 * 10 ^ 18)%Z with 602214076000000000000000000%Z. change (10 ^ 26)%Z with 100000000000000000000000000%Z. lra.
Qed.
Lemma sect_eig (m : model (N:=XR)) st eig s : sm_psd m = P_SECT -> setSourceTerms st eig m s = setSourceTermsSECT st m s.
Proof. intros H. unfold setSourceTerms. rewrite H. reflexivity. Qed.
Lemma case_two : exists m1 m1' s1 s1' g1 k1 b1 n1 st1 m2 s2 g k c0 n0, forall eig,
  let b := geometric c0 4 4 in let n := [n0; 0; 0; 0] in
  isSect m1 b1 2 /\ goodBins b1 /\ hasAll m1 k1 /\ okAll k1 /\ mC k1 <> C_NONE /\ valid s1 g1 n1 /\ length n1 = length b1 /\
  regular k1 g1 (number n1) (mass b1 n1) /\ setSourceTerms None eig m1 s1 = Ok (st1, m1', s1') /\
  (0 < c0)%Z /\ isSect m2 b 4 /\ hasAll m2 k /\ okAll k /\ mC k <> C_NONE /\ valid s2 g n /\
  regular k g (number n) (mass b n) /\ 0 < n0 /\ massCutoff < el b 0.
Proof.
  destruct (sect_built N_LL G_LL O_LL 2 ltac:(auto) ltac:(auto) ltac:(auto) ltac:(lra)) as (m1 & A1 & B1 & C1).
  destruct (sect_built N_LL G_LL O_LL 4 ltac:(auto) ltac:(auto) ltac:(auto) ltac:(lra)) as (m2 & A2 & B2 & C2).
  destruct (sect_state [1; 0; 0; 0] eq_refl) as (s & V). { intros x [<-|[<-|[<-|[<-|[]]]]]; lra. }
  pose proof (ok_sect N_LL G_LL O_LL ltac:(auto) ltac:(auto) ltac:(auto)) as D.
  pose proof (fun b => reg_sect N_LL G_LL O_LL (number [1; 0; 0; 0]) (mass b [1; 0; 0; 0]) ltac:(auto) ltac:(auto)) as RG.
  assert (eig0 : Qmom.eigSolver (N:=XR)) by (exact (fun _ _ _ => (fun _ => Fin 0, fun _ => Fin 0))).
  destruct (C31_own_ m1 s demoGas _ 100 2 4 _ None eig0 ltac:(lia) double2 sane4 A1 C1 D V eq_refl (RG _) (or_introl eq_refl)) as (m' & s' & st' & E & _).
  exists m1, m', s, s', demoGas, (mkMechs N_LL G_LL O_LL C_FM 1), (geometric 100 2 4), [1; 0; 0; 0], st', m2, s, demoGas, (mkMechs N_LL G_LL O_LL C_FM 1), 100%Z, 1.
  intros eig b n. do 4 (split; [assumption|]). split; [discriminate|]. split; [assumption|]. split; [unfold b; rewrite geo_len; reflexivity|]. split; [apply RG|].
  split; [destruct A1 as (P & _); rewrite (sect_eig m1 None eig s P), <- (sect_eig m1 None eig0 s P); exact E|].
  split; [lia|]. do 3 (split; [assumption|]). split; [discriminate|]. split; [assumption|]. split; [apply RG|]. split; [lra|apply cut_100].
Qed.
