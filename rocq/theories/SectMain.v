(** The whole sectional call. *)
From Coq Require Import ZArith List Bool Reals Lra Lia.
From Verif Require Import Num Defs State Coag Nucl Growth Oxid Tar SootModel Sect Calls XR XRLemmas NumLaws
  SpecChem SpecCoag SpecValid SpecRates SpecGas SpecPah SpecPsd SpecSect CoagProofs StateXR ValidProofs InterpProofs GasProofs RateProofs PsdProofs PahProofs MonoProofs ChemAll SectProofs SectRun.
Import ListNotations.
Local Open Scope R_scope.

(** arithmetic on finite values *)
Ltac fin := repeat (match goal with
  | |- context [@nadd XR (Fin ?a) (Fin ?b)] => change (@nadd XR (Fin a) (Fin b)) with (Fin (a + b))
  | |- context [@nsub XR (Fin ?a) (Fin ?b)] => change (@nsub XR (Fin a) (Fin b)) with (Fin (a - b))
  | |- context [@nmul XR (Fin ?a) (Fin ?b)] => change (@nmul XR (Fin a) (Fin b)) with (Fin (a * b))
  | |- context [@nopp XR (Fin ?a)] => change (@nopp XR (Fin a)) with (Fin (- a))
  end).

Lemma finish_eq {N : Num} (m : model (N:=N)) L L' a a' b b' c c' : L = L' -> a = a' -> b = b' -> c = c' -> finish m L a b c = finish m L' a' b' c'.
Proof. intros -> -> -> ->. reflexivity. Qed.

(** ** the whole call *)
Section Run.
Context (m : model (N:=XR)) (s : state (N:=XR)) (g : gas) (k : mechs) (b n : list R) (F : R).
Context (HS : isSect m b F) (G : goodBins b) (HM : hasAll m k) (OM : okAll k) (V : valid s g n) (Ln : length n = length b).
Let ns := length b.
Let M0 := number n.
Let M1 := mass b n.
Let i := dimerHits k g b n.
Let o := nucl k g i.
Let betas := map (fun j => kernel k g (dimerMass g) (el b j)) (seq 0 ns).
Let mb := at_ (N:=XR) (map Fin b).
Let nv := at_ (N:=XR) (map Fin n).

Lemma sees_sect : seesMoments (viewOf m) n M0 M1.
Proof.
  destruct HS as (Hp & Hn & Hb & _). right. cbn [viewOf sv_psd sv_nsoot sv_mBins]. split; [exact Hp|]. pose proof G as (L & _).
  split; [lia|]. split; [lia|]. exists b. split; [exact Hb|]. split; [lia|]. split; [|split; reflexivity].
  intros x Hx. destruct (In_nth _ _ 0 Hx) as (j & Hj & <-). exact (bins_pos b G j Hj).
Qed.
Lemma n_nneg j : 0 <= el n j.
Proof.
  unfold el. destruct (Nat.lt_ge_cases j (length n)) as [H|H].
  - apply (v_sootpos _ _ _ V). now apply nth_In.
  - rewrite nth_overflow by auto. lra.
Qed.
Lemma hits_nneg : 0 <= i.
Proof.
  pose proof OM as (_ & _ & _ & _ & _ & OF). apply Sum_nneg. intros j _. apply Rmult_le_pos; [|apply n_nneg]. eapply kernel_nneg; eauto.
Qed.
Lemma mass_sum : M1 = Sum ns (fun j => el n j * el b j).
Proof. unfold M1, mass. rewrite dot_seq by auto. rewrite Ln. reflexivity. Qed.
Lemma number_sum : M0 = Sum ns (el n).
Proof. unfold M0, number, Sum. fold ns in Ln. rewrite <- Ln, el_all. reflexivity. Qed.

Lemma coll_val s1 : isPAH m = true -> valid s1 (gasCMin g (pahCMin g)) n ->
  collSECT m s1 (Fin (dimerMass g)) = Ok (Fin i, map Fin betas).
Proof.
  intros HP V1. destruct HS as (_ & Hn & Hb & beta & Hv & Hl). pose proof OM as (_ & _ & _ & _ & OC & OF). pose proof G as (L & _).
  assert (EC : sm_coag m = with_f (mC k) (mF k)) by (destruct HM as (_ & _ & _ & E); exact E).
  unfold collSECT. rewrite Hn, Hv, Hb, EC. fold ns mb. rewrite (Hl HP). fold ns. rewrite Nat.ltb_irrefl. cbv zeta.
  assert (EB : map (fun j => coagRate (N:=XR) (with_f (mC k) (mF k)) s1 (Fin (dimerMass g)) (mb j)) (seq 0 ns) = map Fin betas).
  { unfold betas. rewrite map_map. apply map_ext. intros j. unfold mb. rewrite at_fin.
    rewrite (kernel_val s1 (gasCMin g (pahCMin g)) n) by auto. reflexivity. }
  rewrite EB. replace ns with (length n) at 1 by exact Ln. rewrite (readSoot_val s1 n) by exact (v_soot _ _ _ V1). cbn [bind].
  set (r := fun j => kernel k g (dimerMass g) (el b j) * el n j).
  assert (Eb : forall j, (j < ns)%nat -> at_ (N:=XR) (map Fin betas) j = Fin (kernel k g (dimerMass g) (el b j))).
  { intros j Hj. rewrite at_fin. unfold betas. now rewrite el_seq. }
  assert (ET : forall j, (S j < ns)%nat -> @ndiv XR (@nmul XR (at_ (N:=XR) (map Fin betas) j) (at_ (N:=XR) (map Fin n) j)) (@nsub XR (mb (S j)) (mb j)) = Fin (r j / (el b (S j) - el b j))).
  { intros j Hj. rewrite Eb by lia. rewrite at_fin. apply (div_up b n G Ln). exact Hj. }
  assert (EM : forall j, mb j = Fin (el b j)) by (intros; apply at_fin).
  fold ns in L. change (@nZ XR 0) with (Fin 0).
  rewrite (ET 0%nat) by lia. rewrite (EM 0%nat). fin.
  rewrite (fold_sum (fun j => el b j * moveUp b r j)).
  2: { intros j x Hj. apply in_seq in Hj. rewrite (ET j), (ET (j - 1)%nat) by lia. replace (S (j - 1)) with j by lia.
       rewrite EM. fin. f_equal. unfold moveUp.
       destruct (Nat.eqb_spec j 0); [lia|]. fold ns. destruct (Nat.eqb_spec (S j) ns); [lia|]. ring. }
  rewrite (ET (ns - 1 - 1)%nat) by lia. rewrite Eb, at_fin by lia. fin.
  assert (ED : forall x, @ndiv XR (Fin x) (mb (ns - 1)%nat) = Fin (x / el b (ns - 1))) by (intros; apply (div_bin b G); fold ns; lia).
  rewrite ED, EM. fin. do 3 f_equal.
  change i with (Sum ns r). transitivity (Sum ns (fun j => el b j * moveUp b r j)); [|exact (up_mass b G r)].
  replace (Sum ns (fun j => el b j * moveUp b r j)) with (el b 0 * moveUp b r 0 + sumR (map (fun j => el b j * moveUp b r j) (seq 1 (ns - 2))) + el b (ns - 1) * moveUp b r (ns - 1)).
  2: { unfold Sum. destruct ns as [|[|p]]; try lia. replace (S (S p) - 2)%nat with p by lia. replace (S (S p) - 1)%nat with (S p) by lia.
       change (seq 0 (S (S p))) with (0%nat :: seq 1 (S p)). rewrite (seq_S p 1). cbn [map]. rewrite map_app. cbn [map].
       change (0%nat :: ?l) with ([0%nat] ++ l)%list. unfold sumR at 2. cbn [fold_right]. fold (sumR (map (fun j => el b j * moveUp b r j) (seq 1 p) ++ [el b (1 + p) * moveUp b r (1 + p)])).
       rewrite sumR_app. unfold sumR at 3. cbn [fold_right Nat.add]. ring. }
  assert (U0 : moveUp b r 0 = - (r 0%nat / (el b 1 - el b 0))).
  { unfold moveUp. fold ns. destruct (Nat.eqb_spec 1 ns); [lia|]. cbn [Nat.eqb]. ring. }
  assert (U1 : moveUp b r (ns - 1) = r (ns - 1 - 1)%nat / (el b (ns - 1) - el b (ns - 1 - 1)) + r (ns - 1)%nat / el b (ns - 1)).
  { unfold moveUp. fold ns. destruct (Nat.eqb_spec (ns - 1) 0); [lia|]. destruct (Nat.eqb_spec (S (ns - 1)) ns); [|lia]. reflexivity. }
  rewrite U0, U1. replace (S (ns - 1 - 1)) with (ns - 1)%nat by lia. change (kernel k g (dimerMass g) (el b (ns - 1)) * el n (ns - 1)) with (r (ns - 1)%nat). ring.
Qed.

(** the result of the call, when the located indices fit (if coagulation is on) *)
Context (RG : regular k g M0 M1) (st : option xr) (c : R) (HC : located st F c).
Let st' := if coagOn m then Some (Fin c) else st.
Let src := sectSource k g b n c o.

Lemma ilnF_val : ilnFof (N:=XR) st (Fin F) = Fin c.
Proof.
  destruct HC as [->|(-> & P & N & ->)]; [reflexivity|]. unfold ilnFof. pose proof (ln_neq_0 F N P). xsimp. f_equal. field. auto.
Qed.
Lemma sect_priv eff : sm_priv (outM k g m i eff) = PrivSect (Fin F) (if isP k then eff else match sm_priv m with PrivSect _ x => x | _ => [] end).
Proof.
  destruct HS as (_ & _ & _ & beta & Hv & _). unfold outM. destruct (isP k); [|rewrite Hv; reflexivity].
  unfold storeNucl. cbn [with_nuclObj sm_priv]. rewrite Hv. reflexivity.
Qed.
Lemma chem_sect : chemRates (collSECT m) m s =
  Ok (Fin (oJ o), Fin (kgrow k g M0 M1), Fin (koxid k g M0 M1), outM k g m i (map Fin betas), outS k g s).
Proof.
  apply (chem_all m s g k n i (map Fin betas) (collSECT m) V HM OM hits_nneg).
  - intros E. apply coll_val.
    + destruct HM as (A & _). rewrite E in A. destruct A as (_ & A & _). unfold isPAH. now rewrite A.
    + pose proof (outS_valid k s g n i V) as X. unfold outS, nucl in X. rewrite E in X. exact X.
  - apply sees_sect.
  - exact RG.
Qed.
Lemma coagOn2 eff : coagOn (outM k g m i eff) = coagOn m.
Proof. unfold coagOn. destruct (outM_rest k g m i eff) as (_ & _ & _ & _ & E & _). now rewrite E. Qed.

Lemma sect_run eig : (coagOn m = true -> fits c b) ->
  exists m', setSourceTerms st eig m s = Ok (st', m', outS k g s) /\
    soots m' = map (fun j => Fin (src j)) (seq 0 ns) /\
    gasBudget m' k g o (kgrow k g M0 M1 * totalArea b n) (koxid k g M0 M1 * totalArea b n) /\
    pahs m' = pahSourcesOf k g (pahs m) /\ hasAll m' k /\ isSect m' b F.
Proof.
  intros HF. pose proof HS as (Hp & Hn & Hb & beta & Hv & Hl). pose proof OM as (_ & _ & _ & _ & OC & OF). pose proof G as (L & _).
  fold ns in L, Hn.
  set (eff := map Fin betas). set (m2 := outM k g m i eff). set (s2 := outS k g s).
  destruct (outM_rest k g m i eff) as (R1 & R2 & R3 & R4 & R5 & R6 & R7 & R8). fold m2 in R1, R2, R3, R4, R5, R6, R7, R8.
  pose proof (outS_valid k s g n i V) as V2. fold s2 o in V2.
  assert (EC : sm_coag m2 = with_f (mC k) (mF k)) by (unfold m2; apply (coag2 m g k i eff HM)).
  assert (EM : forall j, mb j = Fin (el b j)) by (intros; apply at_fin).
  assert (EN : forall j, nv j = Fin (el n j)) by (intros; apply at_fin).
  set (kg := kgrow k g M0 M1) in *. set (ko := koxid k g M0 M1) in *.
  (* nucleation *)
  assert (E1 : forall j, (if nuclOn m2 && Nat.eqb j 0 return @num XR then @ndiv XR (@nmul XR (Fin (oJ o)) (mNucOf s2)) (mb 0%nat) else nZ 0)
     = Fin (if Nat.eqb j 0 then oN1 o / el b 0 else 0)).
  { intros j. unfold s2. rewrite (mNuc_val s g k n i V). fold o. fin. rewrite (div_bin b G) by (fold ns; lia).
    change (@nZ XR 0) with (Fin 0). destruct (Nat.eqb j 0); [|now rewrite Bool.andb_false_r]. rewrite Bool.andb_true_r.
    destruct (nuclOn m2) eqn:E; [reflexivity|]. f_equal. unfold oN1. unfold m2 in E. pose proof (on_nucl m g k i eff HM E) as Z. fold o in Z. rewrite Z. unfold Rdiv; ring. }
  (* growth *)
  assert (E2 : forall j, (j < ns)%nat -> (if growOn m2 return nat -> @num XR
     then sectUp ns (fun l => @ndiv XR (@nmul XR (Fin kg) (sectArea mb nv l)) (@nsub XR (mb (S l)) (mb l)))
                 (@ndiv XR (@nmul XR (Fin kg) (sectArea mb nv (ns - 1)%nat)) (mb (ns - 1)%nat))
     else fun _ => nZ 0) j = Fin (moveUp b (fun l => kg * binArea b n l) j)).
  { intros j Hj. destruct (growOn m2) eqn:E.
    - apply (up_val b n G Ln); [exact Hj| |].
      + intros l Hl2. unfold mb, nv at 1. rewrite (area_val b n G) by (fold ns; lia). fin. apply (div_up b n G Ln). exact Hl2.
      + unfold lastBin. fold ns. unfold mb, nv at 1. rewrite (area_val b n G) by (fold ns; lia). fin. apply (div_bin b G). fold ns. lia.
    - change (@nZ XR 0) with (Fin 0). f_equal. unfold m2 in E. pose proof (on_grow m g k i eff HM M0 M1 E) as Z. fold kg in Z. unfold moveUp. rewrite Z.
      destruct (Nat.eqb j 0), (Nat.eqb (S j) (length b)); unfold Rdiv; ring. }
  (* condensation *)
  set (bet := match sm_priv m2 with PrivSect _ x => x | _ => [] end).
  assert (EP : sm_priv m2 = PrivSect (Fin F) bet).
  { unfold bet. unfold m2. rewrite sect_priv. reflexivity. }
  assert (EB : isP k = true -> bet = eff).
  { intros E. unfold bet, m2. rewrite sect_priv, E. reflexivity. }
  assert (EQ : forall l, (l < ns)%nat -> isP k = true ->
     @nmul XR (@nmul XR (@nmul XR (at_ (N:=XR) bet l) (nv l)) (nDimer (sm_nucl m2))) (mDimer (sm_nucl m2)) = Fin (condensed k g b n o l)).
  { intros l Hl2 E. rewrite (EB E), EN. destruct (outM_dimer k g m i eff E) as (D1 & D2). fold m2 in D1, D2. rewrite D1, D2.
    unfold eff. rewrite at_fin. fin. unfold betas. rewrite el_seq by auto. unfold condensed. fold o. f_equal.
    assert (ED : oMass o = dimerMass g) by (unfold o, nucl; rewrite E; reflexivity). rewrite ED. reflexivity. }
  assert (E3 : forall j, (j < ns)%nat -> (if isPAH m2 return nat -> @num XR
     then sectUp ns (fun l => @ndiv XR (@nmul XR (@nmul XR (@nmul XR (at_ (N:=XR) bet l) (nv l)) (nDimer (sm_nucl m2))) (mDimer (sm_nucl m2))) (@nsub XR (mb (S l)) (mb l)))
                 (@ndiv XR (@nmul XR (@nmul XR (@nmul XR (at_ (N:=XR) bet (ns - 1)%nat) (nv (ns - 1)%nat)) (nDimer (sm_nucl m2))) (mDimer (sm_nucl m2))) (mb (ns - 1)%nat))
     else fun _ => nZ 0) j = Fin (moveUp b (condensed k g b n o) j)).
  { intros j Hj. unfold m2 at 1. rewrite (on_pah m g k i eff HM). destruct (isP k) eqn:E.
    - apply (up_val b n G Ln); [exact Hj| |].
      + intros l Hl2. rewrite EQ by (auto; lia). apply (div_up b n G Ln). exact Hl2.
      + unfold lastBin. fold ns. rewrite EQ by (auto; lia). apply (div_bin b G). fold ns. lia.
    - change (@nZ XR 0) with (Fin 0). f_equal. destruct (dimer0 g k i E) as (_ & Z). fold o in Z.
      unfold moveUp, condensed. rewrite Z. destruct (Nat.eqb j 0), (Nat.eqb (S j) (length b)); unfold Rdiv; ring. }
  (* oxidation *)
  assert (E4 : forall j, (j < ns)%nat -> (if oxidOn m2 return nat -> @num XR
     then sectDown ns (fun l => @ndiv XR (@nmul XR (Fin ko) (sectArea mb nv l)) (@nsub XR (mb l) (mb (l - 1)%nat)))
                 (@ndiv XR (@nmul XR (Fin ko) (sectArea mb nv 0%nat)) (mb 0%nat))
     else fun _ => nZ 0) j = Fin (moveDown b (fun l => ko * binArea b n l) j)).
  { intros j Hj. destruct (oxidOn m2) eqn:E.
    - apply (down_val b n G Ln); [exact Hj| |].
      + intros l Hl2. unfold mb, nv at 1. rewrite (area_val b n G) by (fold ns; lia). fin. apply (div_down b n G Ln). exact Hl2.
      + unfold mb, nv at 1. rewrite (area_val b n G) by (fold ns; lia). fin. apply (div_bin b G). fold ns. lia.
    - change (@nZ XR 0) with (Fin 0). f_equal. unfold m2 in E. pose proof (on_oxid m g k i eff HM M0 M1 E) as Z. fold ko in Z. unfold moveDown. rewrite Z.
      destruct (Nat.eqb j 0), (Nat.eqb (S j) (length b)); unfold Rdiv; ring. }
  (* coagulation *)
  assert (E5 : (if coagOn m2 return res (option (@num XR) * list (@num XR)) then
                   v <- sectCoag (sm_coag m2) s2 ns mb nv (ilnFof (N:=XR) st (Fin F)) ;; Ok (Some (ilnFof (N:=XR) st (Fin F)), v)
                 else Ok (st, zeros ns)) = Ok (st', vec ns (coagAt k g b n c))).
  { unfold m2 at 1. rewrite coagOn2. unfold st'. destruct (coagOn m) eqn:E.
    - rewrite ilnF_val, EC. unfold mb, nv, ns. rewrite (coag_val b n G Ln k (oGas o) s2 n c V2 OC OF (HF eq_refl)). cbn [bind].
      do 2 f_equal. apply vec_ext. intros j _. unfold coagAt, o. cbv zeta. apply f_equal2.
      + f_equal. apply Sum_ext. intros a _. apply Sum_ext. intros d _. now rewrite kernel_out.
      + apply Sum_ext. intros a _. now rewrite kernel_out.
    - do 2 f_equal. rewrite zeros_vec. apply vec_ext. intros j _. unfold m2 in EC.
      assert (Z : forall x y, kernel k g x y = 0). { intros. apply (on_coag m g k i eff HM OM). rewrite coagOn2. exact E. }
      unfold coagAt. cbv zeta. rewrite !Sum_0; [ring| |]; intros; rewrite ?Z; try ring. apply Sum_0. intros; rewrite Z; ring. }
  (* sums *)
  assert (ES : forall f h, (forall j, (j < ns)%nat -> f j = Fin (h j)) ->
     fold_left (fun acc j => @nadd XR acc (@nmul XR (f j) (mb j))) (seq 0 ns) (nZ 0) = Fin (Sum ns (fun j => el b j * h j))).
  { intros f h Hf. change (@nZ XR 0) with (Fin 0). rewrite (fold_sum (fun j => el b j * h j)); [f_equal; unfold Sum; ring|].
    intros j x Hj. apply in_seq in Hj. rewrite Hf by lia. rewrite EM. fin. f_equal. ring. }
  assert (T1 : Sum ns (fun j => el b j * (if Nat.eqb j 0 then oN1 o / el b 0 else 0)) = oN1 o).
  { rewrite (Sum_one ns 0); [|lia|]. - cbn [Nat.eqb]. field. apply Rgt_not_eq, (bins_pos b G). fold ns. lia.
    - intros j _ E. apply Nat.eqb_neq in E. rewrite E. ring. }
  assert (T2 : Sum ns (fun j => el b j * moveUp b (fun l => kg * binArea b n l) j) = kg * totalArea b n).
  { unfold ns. rewrite (up_mass b G). rewrite Sum_scal. reflexivity. }
  assert (T4 : Sum ns (fun j => el b j * moveDown b (fun l => ko * binArea b n l) j) = - (ko * totalArea b n)).
  { unfold ns. rewrite (down_mass b G). rewrite Sum_scal. reflexivity. }
  destruct (finish_all m g k i eff HM OM (map (fun j => Fin (src j)) (seq 0 ns)) (oN1 o) (kg * totalArea b n) (- (ko * totalArea b n)) eq_refl) as (F1 & F2 & F3 & F4 & F5 & F6).
  fold m2 in F1, F2, F3, F4, F5, F6.
  eexists. split; [|split; [exact F1|split; [|split; [exact F3|split; [exact F4|]]]]].
  - unfold setSourceTerms. rewrite Hp. unfold setSourceTermsSECT. rewrite chem_sect. cbn [bind]. fold eff m2 s2. cbv zeta.
    rewrite R2, Hn, R7, Hb. fold mb. replace ns with (length n) at 1 by exact Ln. rewrite (readSoot_val s2 n) by exact (v_soot _ _ _ V2). cbn [bind].
    rewrite EP. fold nv.
    match goal with |- bind ?r ?f = _ => transitivity (bind (Ok (st', vec ns (coagAt k g b n c))) f); [f_equal; exact E5|] end. cbn [bind]. fold kg ko. do 2 (apply f_equal2; [|reflexivity]) || idtac. f_equal. apply f_equal2; [|reflexivity]. f_equal.
    apply finish_eq.
    + unfold combine5. apply map_ext_in. intros j Hj. apply in_seq in Hj. rewrite E1, E2, E3, E4, at_vec by lia. fin. reflexivity.
    + rewrite (ES _ _ (fun j _ => E1 j)). f_equal. exact T1.
    + rewrite (ES _ _ E2). f_equal. exact T2.
    + rewrite (ES _ _ E4). f_equal. exact T4.
  - apply (budget_eq _ _ _ _ _ _ _ _ F2); unfold kg, ko; ring.
  - split; [exact (eq_trans F5 Hp)|]. split; [exact (eq_trans R2 Hn)|]. split; [exact (eq_trans R7 Hb)|].
    exists bet. split; [exact EP|]. intros E. assert (EQP : isP k = true).
    { rewrite <- (on_pah m g k i eff HM). exact E. }
    rewrite (EB EQP). unfold eff, betas. now rewrite !map_length, seq_length.
Qed.

(** conversely *)
Lemma sect_fits eig r : setSourceTerms st eig m s = Ok r -> coagOn m = true -> fits c b.
Proof.
  intros E On. pose proof HS as (Hp & Hn & Hb & beta & Hv & Hl).
  set (eff := map Fin betas). set (m2 := outM k g m i eff). set (s2 := outS k g s).
  destruct (outM_rest k g m i eff) as (R1 & R2 & R3 & R4 & R5 & R6 & R7 & R8). fold m2 in R1, R2, R3, R4, R5, R6, R7, R8.
  pose proof (outS_valid k s g n i V) as V2. fold s2 o in V2.
  unfold setSourceTerms in E. rewrite Hp in E. unfold setSourceTermsSECT in E. rewrite chem_sect in E. cbn [bind] in E. fold eff m2 s2 in E. cbv zeta in E.
  rewrite R2, Hn, R7, Hb in E. fold ns mb in E. replace ns with (length n) in E at 1 by exact Ln.
  rewrite (readSoot_val s2 n) in E by exact (v_soot _ _ _ V2). cbn [bind] in E.
  assert (EP : sm_priv m2 = PrivSect (Fin F) (if isP k then eff else match sm_priv m with PrivSect _ x => x | _ => [] end)) by (unfold m2; apply sect_priv).
  rewrite EP in E. replace (coagOn m2) with true in E by (unfold m2; now rewrite coagOn2).
  assert (EC : sm_coag m2 = with_f (mC k) (mF k)) by (unfold m2; apply (coag2 m g k i eff HM)). rewrite EC in E.
  pose proof ilnF_val as EI.
  match type of E with bind (bind (sectCoag ?x1 ?x2 ?x3 ?x4 ?x5 ?x6) _) _ = _ =>
    destruct (sectCoag x1 x2 x3 x4 x5 x6) as [v| |] eqn:EV; try discriminate E end.
  apply (coag_fits b n G Ln k s2 c v). etransitivity; [|exact EV]. apply f_equal. symmetry. exact EI.
Qed.
End Run.
