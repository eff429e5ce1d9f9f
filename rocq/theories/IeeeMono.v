(** Signs of the monodisperse source terms in IEEE arithmetic: lemmas of C72. *)
From Coq Require Import ZArith List Bool Lia Reals.
From Coq.Floats Require Import SpecFloat.
From Verif Require Import Num Defs State Coag Nucl Growth Oxid Tar SootModel Mono Calls XR F64 SpecState SpecFrame SpecPsd SpecIeee StateProofs NumLaws FrameMain IeeeProofs IeeeMain.
Import ListNotations.

Lemma bind_assoc_ {A C D} (r : res A) (g : A -> res C) (h : C -> res D) : bind (bind r g) h = bind r (fun x => bind (g x) h).
Proof. destruct r; reflexivity. Qed.

(** species that only react and species that only appear *)
Definition spent (sp : gasSp) : Prop := sp = O2 \/ sp = OH \/ sp = C2H2 \/ sp = C6H6.
Definition formed (sp : gasSp) : Prop := sp = CO \/ sp = H2 \/ sp = H2O.

Section MonoSigns.
Context (lm : libm) (HS : sane lm).
Notation FN := (F64 lm).

Definition signed (x : spec_float) : Prop := match x with S754_nan => True | S754_zero b | S754_infinity b | S754_finite b _ _ => b = true end.
Lemma div_sn x y : nneg x -> signed y -> npos (x /. y).
Proof. destruct x as [[]|[]| |[] ? ?]; destruct y as [[]|[]| |[] ? ?]; intros; try (now cbn in *; auto). cbn in * . destruct (SFdiv_core_binary _ _ _ _ _ _) as [[? ?] ?]. apply aux_np. Qed.
Lemma div_sp x y : npos x -> signed y -> nneg (x /. y).
Proof. destruct x as [[]|[]| |[] ? ?]; destruct y as [[]|[]| |[] ? ?]; intros; try (now cbn in *; auto). cbn in * . destruct (SFdiv_core_binary _ _ _ _ _ _) as [[? ?] ?]. apply un_nn, aux_un. Qed.
Lemma div_np x y : npos x -> unsigned y -> npos (x /. y).
Proof. destruct x as [[]|[]| |[] ? ?]; destruct y as [[]|[]| |[] ? ?]; intros; try (now cbn in *; auto). cbn in * . destruct (SFdiv_core_binary _ _ _ _ _ _) as [[? ?] ?]. apply aux_np. Qed.
Lemma mul_pp x y : npos x -> npos y -> nneg (x *. y).
Proof. destruct x as [[]|[]| |[] ? ?]; destruct y as [[]|[]| |[] ? ?]; intros; try (now cbn in *; auto). cbn in * . apply un_nn, aux_un. Qed.

(** consumed and produced gas *)
Lemma out_np z mdot r w d : npos z -> nneg w -> (nneg mdot /\ (npos r /\ unsigned d \/ nneg r /\ signed d)) \/ (npos mdot /\ (nneg r /\ unsigned d \/ npos r /\ signed d)) ->
  npos (z +. mdot *. r *. w /. d).
Proof.
  intros Z W [[M [[R D]|[R D]]]|[M [[R D]|[R D]]]]; apply add_np; auto.
  - apply div_np; auto. apply mul_np; auto. apply mul_pn; auto.
  - apply div_sn; auto. apply mul_nn; auto. apply mul_nn; auto.
  - apply div_np; auto. apply mul_np; auto. apply mul_np; auto.
  - apply div_sn; auto. apply mul_nn; auto. apply mul_pp; auto.
Qed.
Lemma out_nn z mdot r w d : nneg z -> nneg w -> (nneg mdot /\ (nneg r /\ unsigned d \/ npos r /\ signed d)) \/ (npos mdot /\ (npos r /\ unsigned d \/ nneg r /\ signed d)) ->
  nneg (z +. mdot *. r *. w /. d).
Proof.
  intros Z W [[M [[R D]|[R D]]]|[M [[R D]|[R D]]]]; apply add_nn; auto.
  - apply div_nn; auto. apply mul_nn; auto. apply mul_nn; auto.
  - apply div_sp; auto. apply mul_np; auto. apply mul_pn; auto.
  - apply div_nn; auto. apply mul_nn; auto. apply mul_pp; auto.
  - apply div_sp; auto. apply mul_np; auto. apply mul_np; auto.
Qed.

Lemma set_ok A v i (x : A) : all (fun v' => length v' = length v) (vset v i x).
Proof. intros v' E. unfold vset in E. destruct (i <? length v)%nat; [|discriminate]. injection E as <-. clear. revert i. induction v; intros [|i]; cbn; auto. Qed.

Lemma nucl_all (s : state (N:=FN)) (HO : okS lm s) (nu : nuclObj (N:=FN)) (coll : state (N:=FN) -> @num FN -> res (@num FN * list (@num FN))) :
  (forall s' m, okS lm s' -> unsigned m -> all (fun r => nneg (fst r)) (coll s' m)) ->
  all (fun r => nneg (fst (fst (fst r))) /\
     (nu_class (N:=FN) (snd (fst (fst r))) = nu_class nu /\ nu_mech (N:=FN) (snd (fst (fst r))) = nu_mech nu) /\
     (nu_class nu <> N_PAH -> snd (fst (fst r)) = nu) /\
     (nu_class nu = N_PAH -> unsigned (mDimer (N:=FN) (snd (fst (fst r)))) /\ nneg (nDimer (N:=FN) (snd (fst (fst r))))) /\
     okS lm (snd (fst r)) /\ wts (snd (fst r)) = wts s /\ absc (snd (fst r)) = absc s) (nuclRate coll nu s).
Proof.
  intros HC. assert (K : nu_class nu = N_PAH \/ nu_class nu <> N_PAH) by (destruct (nu_class nu); auto; right; discriminate). destruct K as [K|K].
  - unfold nuclRate. rewrite K. apply all_bind with (1 := nucl_pah lm HS s HO nu coll HC). intros [[[r nu'] s'] e]. cbn [fst snd].
    intros (A & (B1 & B2 & B3 & B4) & C & D & E & F). apply all_ok. cbn [fst snd]. rewrite K in B3. refine (conj A (conj (conj B3 B4) (conj _ (conj (fun _ => conj B1 B2) (conj C (conj E F)))))). intros Q; contradiction Q; reflexivity.
  - intros x E. destruct (nucl_plain lm HS s HO nu coll K x E) as (A & B & C). rewrite B, C. refine (conj A (conj (conj eq_refl eq_refl) (conj (fun _ => eq_refl) (conj (fun Q => False_ind _ (K Q)) (conj HO (conj eq_refl eq_refl)))))).
Qed.

Section Call.
Context (k : mechs) (f : spec_float) (Hf : unsigned f).
Definition holdsI (m : model (N:=FN)) : Prop :=
  sm_psd m = P_MONO /\ nu_class (sm_nucl m) = mN k /\ nu_mech (sm_nucl m) = mN k /\ (mN k <> N_PAH -> sm_nucl m = newNucl (mN k)) /\
  sm_grow m = newGrow (mG k) /\ sm_oxid m = newOxid (mO k) /\ sm_coag m = set_FM_multiplier (newCoag (mC k)) (f : @num FN) /\ sm_tar m = newTar T_NONE.

Lemma store_holds m nu e : holdsI m -> nu_class nu = mN k -> nu_mech nu = mN k -> (mN k <> N_PAH -> nu = newNucl (mN k)) -> holdsI (storeNucl m nu e) /\ sm_nucl (storeNucl m nu e) = nu.
Proof.
  intros (A & _ & _ & _ & B & C & D & E) F G H. unfold storeNucl. split.
  - destruct (sm_priv (with_nuclObj m nu)); destruct e as [[|x [|]]|]; refine (conj A (conj F (conj G (conj H (conj B (conj C (conj D E))))))).
  - destruct (sm_priv (with_nuclObj m nu)); destruct e as [[|x [|]]|]; reflexivity.
Qed.

Lemma area_nn M0 M1 : nneg M0 -> nneg M1 -> nneg (monoArea (N:=FN) M0 M1).
Proof.
  intros A B. unfold monoArea. destruct (nltb (Num:=FN) (nZ (N:=FN) 0) M0) eqn:E; [|vm_compute; reflexivity]. assert (U : unsigned M0) by (apply gt_un; exact E).
  unfold nZ; cbn [nmul ndiv npow nlit F64 num]. apply mul_nn; [|exact A]. apply mul_nn; [vm_compute; reflexivity|]. apply nn_pow; [exact HS| |vm_compute; reflexivity].
  apply div_nn; [|exact U]. apply mul_nn; [vm_compute; reflexivity|exact B].
Qed.

Definition termsOk (t : monoTerms (N:=FN)) : Prop :=
  nneg (mt_N0 t) /\ nneg (mt_N1 t) /\ nneg (mt_Cnd1 t) /\ nneg (mt_G1 t) /\ npos (mt_X1 t) /\ npos (mt_C0 t) /\
  (mN k = N_NONE -> mt_N0 t = nZ 0 /\ mt_N1 t = nZ 0 /\ mt_Cnd1 t = nZ 0) /\
  (mG k = G_NONE -> mt_G1 t = nZ 0) /\ (mO k = O_NONE -> mt_X1 t = nZ 0) /\ (mC k = C_NONE -> mt_C0 t = nZ 0).

Lemma zero_nn : nneg (nZ (N:=FN) 0). Proof. vm_compute. exact I. Qed.
Lemma zero_np : npos (nZ (N:=FN) 0). Proof. vm_compute. exact I. Qed.

Lemma terms_all M0 M1 m s : nneg M0 -> nneg M1 -> okS lm s -> holdsI m -> (mN k = N_PAH -> all nneg (vget (wts s) 0)) ->
  all (fun r => termsOk (fst (fst r)) /\ holdsI (snd (fst r))) (monoTermsOf (N:=FN) M0 M1 m s).
Proof.
  intros H0 H1 HO HM HW. unfold monoTermsOf, chemRates.
  assert (HM' := HM). destruct HM' as (MP & MN & MN' & MN2 & MG & MO & MC & MT).
  apply all_bind with (R := fun r => nneg (fst (fst (fst (fst r)))) /\ nneg (snd (fst (fst (fst r)))) /\ nneg (snd (fst (fst r))) /\
     holdsI (snd (fst r)) /\ okS lm (snd r) /\ wts (snd r) = wts s /\ absc (snd r) = absc s /\
     (mN k = N_PAH -> unsigned (mDimer (N:=FN) (sm_nucl (snd (fst r)))) /\ nneg (nDimer (N:=FN) (sm_nucl (snd (fst r)))))).
  { unfold runNucl. rewrite bind_assoc_.
    assert (CO : unsigned (co_FM (sm_coag m))) by (rewrite MC; exact Hf).
    apply all_bind with (1 := nucl_all s HO (sm_nucl m) (collSum (sm_coag m)) (fun s' x Hs Hx => collSum_nn lm HS s' Hs (sm_coag m) x CO)).
    intros [[[j nu] s'] eff]. cbn [fst snd bind]. intros (A & (B1 & B2) & C & D & E & F & G). rewrite MN in * .
    destruct (store_holds m nu eff HM) as [HM2 EN]; [congruence|congruence|intros Q; rewrite (C Q); apply MN2; exact Q|].
    apply all_bind with (1 := grow_nn lm HS s' E _ _). intros g Hg. apply all_bind with (1 := oxid_nn lm HS s' E _ _). intros o Ho. apply all_ok. cbn [fst snd].
    rewrite EN. refine (conj A (conj Hg (conj Ho (conj HM2 (conj E (conj F (conj G D))))))). }
  intros [[[[j g] o] m'] s']. cbn [fst snd]. intros (Hj & Hg & Ho & HM2 & OK' & EW & EA & HD).
  clear HM MP MN MN' MN2 MG MO MC MT. assert (HM' := HM2). destruct HM' as (MP & MN & MN' & MN2 & MG & MO & MC & MT).
  assert (CO : unsigned (co_FM (sm_coag m'))) by (rewrite MC; exact Hf).
  apply all_bind with (R := fun _ => True); [apply all_any|]. intros x0 _. cbv zeta.
  pose proof (coag_nn lm HS s' OK' (sm_coag m') x0 x0 CO) as HK. set (K := coagRate (sm_coag m') s' x0 x0) in * . clearbody K.
  apply all_bind with (R := fun c => nneg c /\ (mN k = N_NONE -> c = nZ (N:=FN) 0)).
  { unfold isPAH. rewrite MN'. destruct (mN k) eqn:EK; try (apply all_ok; split; [exact zero_nn|reflexivity]).
    rewrite EW. apply all_bind with (1 := HW eq_refl). intros w Hw. apply all_ok. split; [|discriminate]. destruct (HD eq_refl) as [D1 D2].
    pose proof (coag_nn lm HS s' OK' (sm_coag m') (mDimer (sm_nucl m')) x0 CO) as HK2.
    cbn [nmul F64 num]. apply mul_nn; [apply mul_nn; [apply mul_nn; [exact HK2|exact Hw]|exact D2]|apply un_nn, D1]. }
  intros cnd [Hc Hc0].
  apply all_bind with (R := fun c => npos c /\ (mC k = C_NONE -> c = nZ (N:=FN) 0)).
  { unfold coagOn. rewrite MC. cbn [co_mech set_FM_multiplier newCoag]. destruct (mC k) eqn:EK; try (apply all_ok; split; [exact zero_np|reflexivity]);
      (apply all_bind with (R := fun _ => True); [apply all_any|]; intros w _; apply all_ok; split; [|discriminate];
       cbn [nmul F64 num]; apply mul2_np; apply mul_np; [vm_compute; reflexivity|exact HK]). }
  intros c0 [Hc1 Hc2]. apply all_ok. cbn [fst snd]. split; [|exact HM2].
  pose proof (area_nn M0 M1 H0 H1) as HA. set (A := monoArea (N:=FN) M0 M1) in * . clearbody A.
  unfold termsOk. cbn [mt_N0 mt_N1 mt_Cnd1 mt_G1 mt_X1 mt_C0].
  unfold nuclOn, growOn, oxidOn. rewrite MN', MG, MO. cbn [gr_mech newGrow ox_mech newOxid].
  assert (EOX : match oxidTag (mO k) with O_NONE => false | _ => true end = match mO k with O_NONE => false | _ => true end) by (destruct (mO k); reflexivity).
  rewrite EOX.
  split; [destruct (mN k); first [exact zero_nn|exact Hj]|].
  split. { assert (UC : unsigned (cMin s')) by apply OK'. assert (Q : nneg (ndiv (Num:=FN) (nmul (Num:=FN) (nmul (Num:=FN) j (cMin s')) (MWof C_)) Na)).
    { cbn [nmul ndiv F64 num]. apply div_nn; [|vm_compute; reflexivity]. apply mul_nn; [|vm_compute; reflexivity]. apply mul_nn; [exact Hj|apply un_nn, UC]. }
    destruct (mN k); first [exact zero_nn|exact Q]. }
  split; [exact Hc|].
  split. { assert (Q : nneg (nmul (Num:=FN) g A)) by (apply mul_nn; assumption). destruct (mG k); first [exact zero_nn|exact Q]. }
  split. { assert (Q : npos (nmul (Num:=FN) (nopp (Num:=FN) o) A)) by (apply mul_np; [apply opp_np|]; assumption). destruct (mO k); first [exact zero_np|exact Q]. }
  split; [exact Hc1|]. split; [intros E; rewrite E; auto|]. split; [intros E; rewrite E; auto|]. split; [intros E; rewrite E; auto|]. exact Hc2.
Qed.


End Call.

Lemma rates_nth (R : list (@num FN)) (mdot : @num FN) acc sp : sp <> C_ ->
  nth (gasIdx sp) (addGasRates R mdot acc) (nZ 0) = nth (gasIdx sp) acc (nZ (N:=FN) 0) +. mdot *. nth (gasIdx sp) R (nZ (N:=FN) 0) *. nth (gasIdx sp) gasSpMW (nZ (N:=FN) 0) /. (nth (gasIdx C_) R (nZ (N:=FN) 0) *. MWof (N:=FN) C_).
Proof. intros N. destruct sp; try contradiction; reflexivity. Qed.
Ltac consts := first [left; split; vm_compute; reflexivity | right; split; vm_compute; reflexivity | left; split; vm_compute; [exact I|reflexivity] | right; split; vm_compute; [exact I|reflexivity]].
Ltac gasStep := intros; rewrite rates_nth by discriminate; first [apply out_np|apply out_nn]; [vm_compute; exact I|vm_compute; reflexivity|].
Lemma nuclGas_s c mdot sp : c <> N_PAH -> nneg mdot ->
  let v := nth (gasIdx sp) (addGasRates (N:=FN) (nuclRatios c) mdot (zeros gasSize)) (nZ 0) in (spent sp -> npos v) /\ (formed sp -> nneg v).
Proof.
  intros N M v. unfold v. split; intros [->|K]; repeat match goal with K : _ \/ _ |- _ => destruct K as [->|K] end; try subst sp;
    gasStep; left; (split; [exact M|]); destruct c; try contradiction; consts.
Qed.
Lemma growGas_s c mdot sp : nneg mdot ->
  let v := nth (gasIdx sp) (addGasRates (N:=FN) (growRatios c) mdot (zeros gasSize)) (nZ 0) in (spent sp -> npos v) /\ (formed sp -> nneg v).
Proof.
  intros M v. unfold v. split; intros [->|K]; repeat match goal with K : _ \/ _ |- _ => destruct K as [->|K] end; try subst sp;
    gasStep; left; (split; [exact M|]); destruct c; consts.
Qed.
Lemma oxidGas_s c mdot sp : npos mdot ->
  let v := nth (gasIdx sp) (addGasRates (N:=FN) (oxidRatios c) mdot (zeros gasSize)) (nZ 0) in (spent sp -> npos v) /\ (formed sp -> nneg v).
Proof.
  intros M v. unfold v. split; intros [->|K]; repeat match goal with K : _ \/ _ |- _ => destruct K as [->|K] end; try subst sp;
    gasStep; right; (split; [exact M|]); destruct c; consts.
Qed.
Lemma gas_nth k f m n1 g1 x1 sp : holdsI k f m -> nneg n1 -> nneg g1 -> npos x1 -> mN k <> N_PAH ->
  let v := nth (gasIdx sp) (gasSrc (N:=FN) m n1 g1 x1) (S754_zero false) in (spent sp -> npos v) /\ (formed sp -> nneg v).
Proof.
  intros HM Hn Hg Hx NP v. destruct HM as (MP & MN & MN' & MN2 & MG & MO & MC & MT).
  destruct (nuclGas_s (mN k) n1 sp NP Hn) as [A1 A2]. destruct (growGas_s (mG k) g1 sp Hg) as [B1 B2]. destruct (oxidGas_s (mO k) x1 sp Hx) as [C1 C2].
  assert (EV : v = nth (gasIdx sp) (addGasRates (N:=FN) (nuclRatios (mN k)) n1 (zeros gasSize)) (nZ 0) +. nth (gasIdx sp) (addGasRates (N:=FN) (growRatios (mG k)) g1 (zeros gasSize)) (nZ 0)
    +. nth (gasIdx sp) (addGasRates (N:=FN) (oxidRatios (mO k)) x1 (zeros gasSize)) (nZ 0)).
  { unfold v, gasSrc, getNucleationGasRates, getGrowthGasRates, getOxidationGasRates. rewrite (MN2 NP), MG, MO. destruct sp; reflexivity. }
  rewrite EV. split; intros Q.
  - apply add_np; [apply add_np|]; auto.
  - apply add_nn; [apply add_nn|]; auto.
Qed.

Lemma mono_all k f (Hf : unsigned f) m s : okS lm s -> holdsI k f m -> (mN k = N_PAH -> all (fun x => SFltb (S754_zero false) x = true) (vget (sootVar s) 0)) ->
  all (fun r => exists t m', termsOk k t /\ holdsI k f m' /\
    sootSources (N:=FN) (sm_sources (fst r)) = [mt_N0 t +. nZ (N:=FN) 0 +. nZ (N:=FN) 0 +. nZ (N:=FN) 0 +. mt_C0 t; mt_N1 t +. mt_Cnd1 t +. mt_G1 t +. mt_X1 t +. nZ (N:=FN) 0] /\
    gasSources (N:=FN) (sm_sources (fst r)) = gasSrc m' (mt_N1 t) (mt_G1 t) (mt_X1 t)) (setSourceTermsMONO (N:=FN) m s).
Proof.
  intros HO HM HP. unfold setSourceTermsMONO.
  assert (SV : forall i, all nneg (vget (sootVar s) i)). { intros i x E. apply vget_in in E. destruct HO as (_ & _ & _ & _ & _ & Y). exact (Y x E). }
  apply all_bind with (R := fun x => nneg x /\ (mN k = N_PAH -> SFltb (S754_zero false) x = true)). { intros x E. split; [exact (SV _ x E)|intros Q; exact (HP Q x E)]. }
  intros M0 [H0 H0']. apply all_bind with (1 := SV 1%nat). intros M1 H1.
  apply all_bind with (R := fun s' => okS lm s' /\ (mN k = N_PAH -> all nneg (vget (wts s') 0))).
  { unfold monoSetWA. destruct (nltb (Num:=FN) (nZ (N:=FN) 0) M0) eqn:E.
    - apply all_bind with (R := fun w => exists ws, w = M0 :: ws).
      { intros w Ew. unfold vset in Ew. destruct (wts s) as [|w0 ws]; [discriminate Ew|]. injection Ew as <-. eexists. reflexivity. }
      intros w [ws ->]. apply all_bind with (R := fun _ => True); [apply all_any|]. intros a _. apply all_ok. split.
      + destruct HO as (A & B & C). split; [exact A|]. split; [exact B|exact C].
      + intros _ x Ex. unfold with_wa in Ex. cbn [wts] in Ex. injection Ex as <-. exact H0.
    - apply all_ok. split; [exact HO|]. intros Q. specialize (H0' Q). change (nltb (Num:=FN) (nZ 0) M0 = true) in H0'. congruence. }
  intros s' [HO' HW]. assert (HM' := HM). destruct HM' as (MP & MN & MN' & MN2 & MG & MO & MC & MT). rewrite MT. cbn [ta_mech newTar].
  apply all_bind with (1 := terms_all k f Hf M0 M1 m s' H0 H1 HO' HM HW). intros [[t m'] s'']. cbn [fst snd]. intros [HT HM2]. apply all_ok. cbn [fst].
  exists t, m'. exact (conj HT (conj HM2 (conj eq_refl eq_refl))).
Qed.
End MonoSigns.
