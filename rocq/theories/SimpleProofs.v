(** The small example programs (C85). *)
From Coq Require Import ZArith List Bool Reals Lra Lia.
From Verif Require Import Num Defs State Coag Nucl Growth Oxid Tar SootModel Mono Qmom Calls CInterface Simple XR SpecState StateProofs HmomProofs CallsProofs.
Import ListNotations.

Section Any.
Context (N : Num) (L : cmpLaws N).

Lemma not_10 : nltb (nZ 1) (nZ 0) = false.
Proof. destruct (nltb (nZ 1) (nZ 0)) eqn:E; auto. pose proof (lt_trans (N:=N) L _ _ _ E (lt_01 (N:=N) L)) as H. rewrite (lt_irr (N:=N) L) in H. discriminate. Qed.
Lemma passes y : nltb (nZ 1) y = false -> nltb (nZ 1) (if nltb y (nZ 0) then nZ 0 else y) = false.
Proof. intros H. destruct (nltb y (nZ 0)); auto. apply not_10. Qed.

Lemma clip_one x : exists y, clipNeg (N:=N) 1 [x] = Ok [y] /\ existsb (fun x => nltb x (nZ 0)) [y] = false.
Proof.
  unfold clipNeg. change (Z.to_nat 1) with 1%nat. cbn [seq foldM vget nth_error bind]. destruct (nltb x (nZ 0)) eqn:E.
  - exists (nZ 0). split; [reflexivity|]. cbn [existsb]. now rewrite (lt_irr (N:=N) L).
  - exists x. split; [reflexivity|]. cbn [existsb]. now rewrite E.
Qed.
Lemma clip_two x x' : exists y y', clipNeg (N:=N) 2 [x; x'] = Ok [y; y'] /\ existsb (fun x => nltb x (nZ 0)) [y; y'] = false.
Proof.
  unfold clipNeg. change (Z.to_nat 2) with 2%nat. cbn [seq foldM vget nth_error bind]. destruct (nltb x (nZ 0)) eqn:E.
  - cbn [vset bind upd length Nat.ltb Nat.leb vget nth_error]. destruct (nltb x' (nZ 0)) eqn:E'.
    + exists (nZ 0), (nZ 0). split; [reflexivity|]. cbn [existsb]. now rewrite (lt_irr (N:=N) L).
    + exists (nZ 0), x'. split; [reflexivity|]. cbn [existsb]. now rewrite (lt_irr (N:=N) L), E'.
  - cbn [vset bind upd length Nat.ltb Nat.leb vget nth_error]. destruct (nltb x' (nZ 0)) eqn:E'.
    + exists x, (nZ 0). split; [reflexivity|]. cbn [existsb]. now rewrite (lt_irr (N:=N) L), E.
    + exists x, x'. split; [reflexivity|]. cbn [existsb]. now rewrite E, E'.
Qed.

(** the sources of a call: they depend on what the mechanisms read only *)
Definition shown (r : res (option num * model * state)) : res (list num * list num) :=
  match r with Ok (_, m, _) => Ok (sootSources (sm_sources m), gasSources (sm_sources m)) | Throw e => Throw e | UB u => UB u end.
Definition theModel (nt : nat) (f : num) : model :=
  match simpleModel P_MONO 2 nt f with Ok m => m | _ => mkModel P_NONE 0 0 (newNucl N_NONE) (newGrow G_NONE) (newOxid O_NONE) (newCoag C_NONE) (newTar T_NONE) false [] (mkSources [] [] [] [] []) PrivNone end.
Lemma model_ok nt f : simpleModel P_MONO 2 nt f = Ok (theModel nt f).
Proof. reflexivity. Qed.
Record sameReads (s s' : state) : Prop := {
  sr_T : T s = T s'; sr_rho : rhoGas s = rhoGas s'; sr_mu : muGas s = muGas s'; sr_c : cMin s = cMin s';
  sr_soot : sootVar s = sootVar s'; sr_gas : firstn 8 (yGas s) = firstn 8 (yGas s'); sr_len : (8 <= length (yGas s))%nat /\ (8 <= length (yGas s'))%nat;
  sr_w : wts s = wts s'; sr_a : absc s = absc s' }.
Lemma chem_simple coll nt f s a0 a1 a2 a3 a4 a5 a6 a7 r M0 M1 sv : yGas s = a0 :: a1 :: a2 :: a3 :: a4 :: a5 :: a6 :: a7 :: r -> sootVar s = M0 :: M1 :: sv ->
  exists J K X, J = match nuclLL (with_yGas s [a0; a1; a2; a3; a4; a5; a6; a7]) with Ok x => x | _ => nZ 0 end /\
    K = match growLL (viewOf (theModel nt f)) (with_yGas (with_sootVar s [M0; M1]) [a0; a1; a2; a3; a4; a5; a6; a7]) with Ok x => x | _ => nZ 0 end /\
    X = match oxidLL (with_yGas s [a0; a1; a2; a3; a4; a5; a6; a7]) with Ok x => x | _ => nZ 0 end /\
    chemRates coll (theModel nt f) s = Ok (J, K, X, theModel nt f, s).
Proof.
  intros EG ES. destruct s as [t p rho mw mu yg yp n sv' ab w sc c nT tv yb mt yt oc hc v]. cbn [yGas sootVar] in *. subst yg sv'.
  do 3 eexists. split; [reflexivity|]. split; [reflexivity|]. split; [reflexivity|]. destruct (nltb (nZ 0) (growArea M0 M1)) eqn:A.
  all: unfold chemRates, theModel, growLL; cbn; rewrite A; reflexivity.
Qed.
Lemma same_sources nt nt' f eig s s' : sameReads s s' -> (1 <= length (wts s))%nat -> (1 <= length (absc s))%nat -> (2 <= length (sootVar s))%nat ->
  exists q gs, shown (setSourceTerms None eig (theModel nt f) s) = Ok (q, gs) /\ shown (setSourceTerms None eig (theModel nt' f) s') = Ok (q, gs) /\ length q = 2%nat /\ length gs = 11%nat.
Proof.
  intros [E1 E2 E3 E4 E5 E6 [L1 L2] E7 E8] LW LA LS. destruct s as [t p rho mw mu yg yp n sv ab w sc c nT tv yb mt yt oc hc v]. destruct s' as [t' p' rho' mw' mu' yg' yp' n' sv' ab' w' sc' c' nT' tv' yb' mt' yt' oc' hc' v'].
  cbn [T rhoGas muGas cMin sootVar yGas wts absc] in *. subst t' rho' mu' c' sv' w' ab'.
  do 8 (destruct yg as [|?y yg]; [cbn in L1; lia|]). do 8 (destruct yg' as [|?z yg']; [cbn in L2; lia|]). cbn [firstn] in E6. injection E6 as <- <- <- <- <- <- <- <-.
  destruct w as [|w0 w]; [cbn in LW; lia|]. destruct ab as [|a0 ab]; [cbn in LA; lia|]. destruct sv as [|M0 [|M1 sv]]; try (cbn in LS; lia). clear L1 L2 LW LA LS.
  set (s1 := mkState t p _ _ _ _ _ _ _ _ _ _ _ _ _ _ _ _ _ _ _). set (s2 := mkState t p' _ _ _ _ _ _ _ _ _ _ _ _ _ _ _ _ _ _ _).
  set (u1 := if nltb (nZ 0) M0 then with_wa s1 (M0 :: w) (ndiv M1 M0 :: ab) else s1). set (u2 := if nltb (nZ 0) M0 then with_wa s2 (M0 :: w) (ndiv M1 M0 :: ab) else s2).
  assert (W1 : monoSetWA M0 M1 s1 = Ok u1) by (unfold monoSetWA, u1; destruct (nltb (nZ 0) M0); reflexivity).
  assert (W2 : monoSetWA M0 M1 s2 = Ok u2) by (unfold monoSetWA, u2; destruct (nltb (nZ 0) M0); reflexivity).
  destruct (chem_simple (collSum (sm_coag (theModel nt f))) nt f u1 y y0 y1 y2 y3 y4 y5 y6 yg M0 M1 sv) as (J & K & X & EJ & EK & EX & C1); [unfold u1; destruct (nltb (nZ 0) M0); reflexivity..|].
  destruct (chem_simple (collSum (sm_coag (theModel nt' f))) nt' f u2 y y0 y1 y2 y3 y4 y5 y6 yg' M0 M1 sv) as (J' & K' & X' & EJ' & EK' & EX' & C2); [unfold u2; destruct (nltb (nZ 0) M0); reflexivity..|].
  assert (HJ : J = J') by (rewrite EJ, EJ'; unfold u1, u2; destruct (nltb (nZ 0) M0); reflexivity).
  assert (HK : K = K') by (rewrite EK, EK'; unfold u1, u2; destruct (nltb (nZ 0) M0); reflexivity).
  assert (HX : X = X') by (rewrite EX, EX'; unfold u1, u2; destruct (nltb (nZ 0) M0); reflexivity).
  rewrite <- HJ, <- HK, <- HX in C2. clear HJ HK HX EJ EK EX EJ' EK' EX'.
  change (setSourceTerms None eig (theModel nt f) s1) with ('(m', s') <- setSourceTermsMONO (theModel nt f) s1 ;; Ok (@None num, m', s')).
  change (setSourceTerms None eig (theModel nt' f) s2) with ('(m', s') <- setSourceTermsMONO (theModel nt' f) s2 ;; Ok (@None num, m', s')).
  unfold setSourceTermsMONO. change (sootVar s1) with (M0 :: M1 :: sv). change (sootVar s2) with (M0 :: M1 :: sv). cbn [vget nth_error bind]. rewrite W1, W2. cbn [bind].
  change (ta_mech (sm_tar (theModel nt f))) with T_NONE. change (ta_mech (sm_tar (theModel nt' f))) with T_NONE. cbv beta iota.
  unfold monoTermsOf. rewrite C1, C2. clear C1 C2 W1 W2. unfold u1, u2. destruct (nltb (nZ 0) M0).
  all: do 2 eexists; split; [reflexivity|]; split; [reflexivity|]; split; reflexivity.
Qed.

(** ** setState of the two programs *)
Lemma set_pair T_ P_ rho mu y9 a yp x0 x1 tv b m y : length y9 = 9%nat -> nltb (nZ 1) a = false ->
  let r1 := setState (newState 2 0) T_ P_ rho mu y9 yp [x0; x1] 2 [] 0 (nZ 100) in
  let r2 := setState (with_my (with_yBio (newState 2 1) b) m y) T_ P_ rho mu (y9 ++ [a]) yp [x0; x1] 2 [tv] 1 (nZ 100) in
  (exists e u1 u2, r1 = SetThrow e u1 /\ r2 = SetThrow e u2) \/
  (exists s1 s2, r1 = SetOk s1 /\ r2 = SetOk s2 /\ sameReads s1 s2 /\ length (wts s1) = 1%nat /\ length (absc s1) = 1%nat /\ length (sootVar s1) = 2%nat).
Proof.
  intros LY PA. cbv zeta. unfold setState.
  destruct (nleb T_ (nZ 0)); [left; eauto|]. destruct (nleb P_ (nZ 0)); [left; eauto|]. destruct (nleb rho (nZ 0)); [left; eauto|].
  destruct (nleb mu (nZ 0)); [left; eauto|]. destruct (nleb (nZ 100) (nZ 0)); [left; eauto|]. cbv zeta.
  destruct (clip_two x0 x1) as (z0 & z1 & EZ & BZ). destruct (clip_one tv) as (tv' & ET & BT).
  match goal with |- context [clipNeg ?n [x0; x1]] => change n with 2%Z end. rewrite EZ.
  match goal with |- context [clipNeg (st_nsoot ?s) [x0; x1]] => change (st_nsoot s) with 2%Z end. rewrite EZ.
  rewrite BZ. 
  match goal with |- context [clipNeg ?n []] => change n with 0%Z end. change (clipNeg (N:=N) 0 []) with (Ok (@nil num)). cbn [existsb].
  match goal with |- context [clipNeg ?n [tv]] => change n with 1%Z end. rewrite ET.
  rewrite BT. rewrite existsb_app. cbn [existsb]. rewrite (passes a PA). cbn [orb]. rewrite orb_false_r.
  destruct (existsb (fun y0 : num => nltb (nZ 1) (if nltb y0 (nZ 0) then nZ 0 else y0)) y9); [left; eauto|].
  match goal with |- context [Nat.eqb (length yp) ?n] => change n with 6%nat end.
  match goal with |- context [Nat.eqb (length yp) (length (yPah ?s))] => change (length (yPah s)) with 6%nat end.
  destruct (negb (Nat.eqb (length yp) 6)); [left; eauto|].
  destruct (existsb (fun y0 : num => nltb y0 (nZ 0) || nltb (nZ 1) y0) yp); [left; eauto|].
  destruct (nltb (nZ 1) (nsum yp)); [left; eauto|].
  right. do 2 eexists. split; [reflexivity|]. split; [reflexivity|]. split; [|split; [|split]]; try reflexivity.
  constructor; try reflexivity.
  - change (firstn 8 y9 = firstn 8 (y9 ++ [a])). rewrite firstn_app. rewrite LY. cbn [firstn Nat.sub]. now rewrite app_nil_r.
  - change (8 <= length y9 /\ 8 <= length (y9 ++ [a]))%nat. rewrite app_length, LY. cbn. lia.
Qed.
Lemma range_all (p q : list num) n : length p = Z.to_nat n -> (0 <= n)%Z -> copyRange (p ++ q) n = Ok p.
Proof.
  intros LP Pn. unfold copyRange. destruct (Z.ltb_spec n 0); [lia|]. rewrite <- LP.
  assert (G : forall k l, p = k ++ l -> mapM (fun i => vget (p ++ q) i) (seq (length k) (length l)) = Ok l).
  { intros k l. revert k. induction l as [|x l IH]; intros k E; [reflexivity|]. cbn [length seq mapM].
    assert (V : vget (p ++ q) (length k) = Ok x).
    { unfold vget. rewrite E, <- app_assoc, nth_error_app2, Nat.sub_diag by lia. reflexivity. }
    rewrite V. cbn [bind]. specialize (IH (k ++ [x])). rewrite app_length, Nat.add_1_r in IH. rewrite <- app_assoc in IH. rewrite (IH E). reflexivity. }
  exact (G [] p eq_refl).
Qed.

(** the values printed, from those of the call *)
Definition printed (r : res (list num * list num)) : res (list num * list num) :=
  match r with Ok (q, gs) => Ok (q, firstn 9 gs ++ skipn 10 gs) | Throw e => Throw e | UB u => UB u end.
Lemma cpp_run eig f T_ P_ rho mu yg yp sv s : setState (newState 2 0) T_ P_ rho mu yg yp sv 2 [] 0 (nZ 100) = SetOk s ->
  (forall q gs, shown (setSourceTerms None eig (theModel 0 f) s) = Ok (q, gs) -> length q = 2%nat -> length gs = 11%nat ->
   simpleCpp eig f T_ P_ rho mu yg yp sv = Ok (q, firstn 9 gs ++ skipn 10 gs)).
Proof.
  intros E q gs Es Lq Lg. unfold simpleCpp, simpleRun. rewrite model_ok. cbn [bind]. change (Z.of_nat 2) with 2%Z. rewrite E.
  destruct (setSourceTerms None eig (theModel 0 f) s) as [[[g' m'] s']|e|u]; try discriminate. cbn [shown] in Es. cbn [bind].
  injection Es as -> ->. destruct q as [|q0 [|q1 [|? ?]]]; try discriminate. do 11 (destruct gs as [|?x gs]; [discriminate|]). destruct gs; [|discriminate]. reflexivity.
Qed.
Lemma cpp_throw eig f T_ P_ rho mu yg yp sv e u : setState (newState 2 0) T_ P_ rho mu yg yp sv 2 [] 0 (nZ 100) = SetThrow e u ->
  simpleCpp eig f T_ P_ rho mu yg yp sv = Throw e.
Proof. intros E. unfold simpleCpp, simpleRun. rewrite model_ok. cbn [bind]. change (Z.of_nat 2) with 2%Z. rewrite E. reflexivity. Qed.
Lemma fort_state b0 b1 b2 b3 b4 br : exists m y, fortState (N:=N) (b0 :: b1 :: b2 :: b3 :: b4 :: br) = Ok (with_my (with_yBio (newState 2 1) [b0; b1; b2; b3; b4]) m y).
Proof. do 2 eexists. reflexivity. Qed.
Lemma C85_same_ eig f T_ P_ rho mu y9 a b yp bio sv tv c : length y9 = 9%nat -> nltb (nZ 1) a = false -> length yp = 6%nat -> length bio = 5%nat -> length sv = 2%nat -> length tv = 1%nat ->
  (exists e, simpleCpp eig f T_ P_ rho mu y9 yp sv = Throw e /\ simpleFort eig f T_ P_ rho mu (y9 ++ [a; b]) yp bio sv tv c = Throw e) \/
  (exists q gs, simpleFort eig f T_ P_ rho mu (y9 ++ [a; b]) yp bio sv tv c = Ok (q, gs) /\ length q = 2%nat /\ length gs = 11%nat /\
    simpleCpp eig f T_ P_ rho mu y9 yp sv = Ok (q, firstn 9 gs ++ skipn 10 gs)).
Proof.
  intros LY PA LP LB LS LT. destruct sv as [|x0 [|x1 [|? ?]]]; try discriminate. destruct tv as [|tv [|? ?]]; try discriminate.
  do 5 (destruct bio as [|?b bio]; [discriminate|]). destruct bio; [|discriminate]. destruct (fort_state b0 b1 b2 b3 b4 []) as (m & y & EF).
  unfold simpleFort. rewrite model_ok. cbn [bind]. rewrite EF. cbn [bind]. unfold setState_C.
  replace (y9 ++ [a; b]) with ((y9 ++ [a]) ++ [b]) by (now rewrite <- app_assoc).
  rewrite (range_all (y9 ++ [a]) [b] 10) by (try (rewrite app_length, LY; reflexivity); lia).
  assert (EP : copyRange yp 6 = Ok yp) by (rewrite <- (app_nil_r yp) at 1; apply range_all; [now rewrite LP|lia]). rewrite EP.
  change (copyRange [x0; x1] 2) with (Ok [x0; x1]). change (copyRange [tv] 1) with (Ok [tv]). cbv iota.
  destruct (set_pair T_ P_ rho mu y9 a yp x0 x1 tv [b0; b1; b2; b3; b4] m y LY PA) as [(e & u1 & u2 & E1 & E2)|(s1 & s2 & E1 & E2 & SR & Lw & La & Ls)].
  - left. exists e. split; [eapply cpp_throw; exact E1|]. rewrite E2. reflexivity.
  - right. destruct (same_sources 0 1 f eig s1 s2 SR) as (q & gs & S1 & S2 & Lq & Lg); try lia. exists q, gs. split; [|split; [exact Lq|split; [exact Lg|]]].
    + rewrite E2. destruct (setSourceTerms None eig (theModel 1 f) s2) as [[[g' m'] s']|e|u]; try discriminate. cbn [shown] in S2. cbn [bind]. injection S2 as Q1 Q2.
      unfold getGasSources_C, getSootSources_C. rewrite Q1, Q2, !CallsProofs.copy_all. rewrite Lg, Lq. change (length (zeros (N:=N) 2)) with 2%nat. change (length (zeros (N:=N) gasSize)) with 11%nat. cbn [Nat.leb andb gasSize bind].
      destruct q as [|q0 [|q1 [|? ?]]]; try discriminate. do 11 (destruct gs as [|?x gs]; [discriminate|]). destruct gs; [|discriminate]. reflexivity.
    + eapply cpp_run; eauto.
Qed.
(** the ninth entry is not used *)
Definition tooMuch (l : list num) : bool := existsb (fun y => nltb (nZ 1) (if nltb y (nZ 0) then nZ 0 else y)) l.
Lemma set_gas T_ P_ rho mu yg yg' yp x0 x1 : tooMuch yg = tooMuch yg' -> firstn 8 yg = firstn 8 yg' -> (8 <= length yg)%nat -> (8 <= length yg')%nat ->
  let r y := setState (newState 2 0) T_ P_ rho mu y yp [x0; x1] 2 [] 0 (nZ 100) in
  (exists e u1 u2, r yg = SetThrow e u1 /\ r yg' = SetThrow e u2) \/
  (exists s1 s2, r yg = SetOk s1 /\ r yg' = SetOk s2 /\ sameReads s1 s2 /\ length (wts s1) = 1%nat /\ length (absc s1) = 1%nat /\ length (sootVar s1) = 2%nat).
Proof.
  intros PA E8 L1 L2. cbv zeta. unfold setState. fold (tooMuch yg). fold (tooMuch yg'). rewrite <- PA.
  destruct (nleb T_ (nZ 0)); [left; eauto|]. destruct (nleb P_ (nZ 0)); [left; eauto|]. destruct (nleb rho (nZ 0)); [left; eauto|].
  destruct (nleb mu (nZ 0)); [left; eauto|]. destruct (nleb (nZ 100) (nZ 0)); [left; eauto|]. cbv zeta.
  destruct (clip_two x0 x1) as (z0 & z1 & EZ & BZ).
  match goal with |- context [clipNeg ?n [x0; x1]] => change n with 2%Z end. rewrite EZ, BZ.
  match goal with |- context [clipNeg ?n []] => change n with 0%Z end. change (clipNeg (N:=N) 0 []) with (Ok (@nil num)). cbn [existsb].
  destruct (tooMuch yg); [left; eauto|].
  match goal with |- context [Nat.eqb (length yp) ?n] => change n with 6%nat end.
  match goal with |- context [Nat.eqb (length yp) (length (yPah ?s))] => change (length (yPah s)) with 6%nat end.
  destruct (negb (Nat.eqb (length yp) 6)); [left; eauto|].
  destruct (existsb (fun y0 : num => nltb y0 (nZ 0) || nltb (nZ 1) y0) yp); [left; eauto|].
  destruct (nltb (nZ 1) (nsum yp)); [left; eauto|].
  right. do 2 eexists. split; [reflexivity|]. split; [reflexivity|]. split; [|split; [|split]]; try reflexivity.
  constructor; try reflexivity; try exact E8. split; [exact L1|exact L2].
Qed.
Lemma C85_ninth_ eig f T_ P_ rho mu y8 a a' yp sv : length y8 = 8%nat -> length sv = 2%nat -> nltb (nZ 1) a = false -> nltb (nZ 1) a' = false ->
  simpleCpp eig f T_ P_ rho mu (y8 ++ [a]) yp sv = simpleCpp eig f T_ P_ rho mu (y8 ++ [a']) yp sv.
Proof.
  intros LY LS PA PA'. destruct sv as [|x0 [|x1 [|? ?]]]; try discriminate.
  destruct (set_gas T_ P_ rho mu (y8 ++ [a]) (y8 ++ [a']) yp x0 x1) as [(e & u1 & u2 & E1 & E2)|(s1 & s2 & E1 & E2 & SR & Lw & La & Ls)].
  - unfold tooMuch. rewrite !existsb_app. cbn [existsb]. now rewrite (passes a PA), (passes a' PA').
  - rewrite !firstn_app, LY. reflexivity.
  - rewrite app_length, LY. cbn. lia.
  - rewrite app_length, LY. cbn. lia.
  - rewrite (cpp_throw eig f _ _ _ _ _ _ _ _ _ E1), (cpp_throw eig f _ _ _ _ _ _ _ _ _ E2). reflexivity.
  - destruct (same_sources 0 0 f eig s1 s2 SR) as (q & gs & S1 & S2 & Lq & Lg); try lia.
    rewrite (cpp_run eig f _ _ _ _ _ _ _ _ E1 q gs S1 Lq Lg), (cpp_run eig f _ _ _ _ _ _ _ _ E2 q gs S2 Lq Lg). reflexivity.
Qed.
(** the hybrid method *)
Lemma C85_hmom_ eig f T_ P_ rho mu yg yp sv : length sv = 4%nat ->
  match call (newState 4 0) (mkArgs T_ P_ rho mu yg yp sv 4 [] 0 (nZ 100)) with
  | SetOk _ => simpleHmom eig f T_ P_ rho mu yg yp sv = UB OutOfBounds
  | SetThrow e _ => simpleHmom eig f T_ P_ rho mu yg yp sv = Throw e
  | SetUB => False
  end.
Proof.
  intros LS. unfold call. cbn [aT aP arho amu ayGas ayPah asoot ansoot atar aNtar acMin]. unfold simpleHmom, simpleRun. change (Z.of_nat 4) with 4%Z.
  destruct (setState (newState 4 0) T_ P_ rho mu yg yp sv 4 [] 0 (nZ 100)) as [s|e s|] eqn:E.
  - unfold simpleModel. destruct (constructPtr P_HMOM 4 (newNucl N_LL) (newGrow G_LL) (newOxid O_LL) (newCoag C_FM) 0 (newTar T_NONE) (nZ 2) 100) as [m|e|u] eqn:EB; try discriminate EB.
    cbn [bind]. injection EB as <-. erewrite hmom_call; [reflexivity|reflexivity|reflexivity|reflexivity].
  - unfold simpleModel. destruct (constructPtr P_HMOM 4 (newNucl N_LL) (newGrow G_LL) (newOxid O_LL) (newCoag C_FM) 0 (newTar T_NONE) (nZ 2) 100) as [m|e'|u] eqn:EB; try discriminate EB.
    reflexivity.
  - apply (C04_ub L (newState 4 0) (mkArgs T_ P_ rho mu yg yp sv 4 [] 0 (nZ 100))) in E. destruct E as (_ & [E|(_ & E)]); cbn [asoot atar newState st_nsoot st_Ntar] in E; [rewrite LS in E|]; cbn in E; lia.
Qed.
End Any.
