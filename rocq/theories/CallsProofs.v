(** Proofs about programs that use the C interface (C80). *)
From Coq Require Import ZArith List Bool Lia.
From Verif Require Import Num Defs State Coag Nucl Growth Oxid Tar SootModel Calls CInterface SpecCalls SpecSafe SpecState StateProofs NumLaws MiscProofs.
From Verif Require Import SafeMain ShortMain.
Import ListNotations.

Section CallsProofs.
Context {N : Num}.

Lemma nth_mid {A} (l : list A) x r : nth_error (l ++ x :: r) (length l) = Some x.
Proof. rewrite nth_error_app2, Nat.sub_diag by lia. reflexivity. Qed.
Lemma upd_mid {A} (l : list A) y r x : upd (l ++ y :: r) (length l) x = l ++ x :: r.
Proof. induction l as [|a l IH]; [reflexivity|]. cbn [app length upd]. now rewrite IH. Qed.

Lemma copy_gen n : forall pre rest p2 srest : list num, length p2 = length pre ->
  foldM (fun b i => x <- vget (p2 ++ srest) i ;; vset b i x) (seq (length pre) n) (pre ++ rest) =
  if (n <=? length srest) && (n <=? length rest) then Ok (pre ++ firstn n srest ++ skipn n rest) else UB OutOfBounds.
Proof.
  induction n as [|n IH]; intros pre rest p2 srest L; [reflexivity|].
  cbn [seq foldM]. unfold vget at 1. destruct srest as [|x srest].
  { replace (nth_error (p2 ++ []) (length pre)) with (@None num); [reflexivity|].
    symmetry. apply nth_error_None. rewrite app_nil_r. lia. }
  rewrite <- L at 1. rewrite nth_mid. cbn [bind]. unfold vset at 1. destruct rest as [|y rest].
  { rewrite app_nil_r. destruct (Nat.ltb_spec (length pre) (length pre)); [lia|]. cbn [bind length Nat.leb].
    rewrite andb_false_r. reflexivity. }
  rewrite app_length. cbn [length]. destruct (Nat.ltb_spec (length pre) (length pre + S (length rest))); [|lia].
  cbn [bind]. rewrite upd_mid.
  specialize (IH (pre ++ [x]) rest (p2 ++ [x]) srest). rewrite !app_length in IH. cbn [length] in IH.
  rewrite !Nat.add_1_r, <- !app_assoc in IH. cbn [app] in IH. rewrite IH by lia. cbn [Nat.leb firstn skipn app]. reflexivity.
Qed.
Lemma copy_all (buf src : list num) n :
  copyOut buf src n = if (n <=? length src) && (n <=? length buf) then Ok (firstn n src ++ skipn n buf) else UB OutOfBounds.
Proof. exact (copy_gen n [] buf [] src eq_refl). Qed.

Lemma copy_ok (buf src out : list num) n :
  copyOut buf src n = Ok out <-> n <= length src /\ n <= length buf /\ out = firstn n src ++ skipn n buf.
Proof.
  rewrite copy_all. destruct (Nat.leb_spec n (length src)), (Nat.leb_spec n (length buf)); cbn [andb];
    (split; [intros H1; try discriminate H1; repeat split; try assumption; congruence|intros (A & B & ->); reflexivity || lia]).
Qed.
Lemma copy_not (buf src : list num) n : length src < n \/ length buf < n -> copyOut buf src n = UB OutOfBounds.
Proof.
  intros H. rewrite copy_all. destruct (Nat.leb_spec n (length src)), (Nat.leb_spec n (length buf)); cbn [andb]; reflexivity || lia.
Qed.

(** ** histories *)
Lemma set_same (s : state) n nt t p rho mu yg yp sv ns tv nT cm :
  longEnough n nt (CSet t p rho mu yg yp sv ns tv nT cm) ->
  setState_C s t p rho mu yg yp sv ns tv nT cm =
  setState s t p rho mu (firstn 10 yg) (firstn 6 yp) (firstn n sv) (Z.of_nat n) (firstn nt tv) (Z.of_nat nt) (nZ 100).
Proof.
  cbn [longEnough]. intros (H1 & H2 & -> & H3 & -> & H4). rewrite C50_call by lia. now rewrite !Nat2Z.id.
Qed.

Lemma run_same n nt l : forall c, Forall (longEnough n nt) l ->
  runC c l = runActions c (map (sameInCpp n nt) l) \/
  exists l1 a l2 g m s e, l = l1 ++ a :: l2 /\ runC c l1 = Ok (g, m, s) /\ runActions c (map (sameInCpp n nt) l1) = Ok (g, m, s) /\
    refused n nt s a e /\ runC c l = Throw e.
Proof.
  induction l as [|a l IH]; intros [[g m] s] F; [now left|]. inversion F as [|? ? Fa Fl]; subst. clear F.
  assert (ST : forall c', doC (g, m, s) a = Ok c' -> doAction (g, m, s) (sameInCpp n nt a) = Ok c' ->
    runC (g, m, s) (a :: l) = runActions (g, m, s) (map (sameInCpp n nt) (a :: l)) \/
    exists l1 a' l2 g' m' s' e, a :: l = l1 ++ a' :: l2 /\ runC (g, m, s) l1 = Ok (g', m', s') /\
      runActions (g, m, s) (map (sameInCpp n nt) l1) = Ok (g', m', s') /\ refused n nt s' a' e /\ runC (g, m, s) (a :: l) = Throw e).
  { intros c' E1 E2. destruct (IH c' Fl) as [R|(l1 & a' & l2 & g' & m' & s' & e & R1 & R2 & R3 & R4 & R5)].
    - left. unfold runC, runActions in *. cbn [map foldM]. rewrite E1, E2. exact R.
    - right. exists (a :: l1), a', l2, g', m', s', e. split; [rewrite R1; reflexivity|].
      unfold runC, runActions in *. cbn [map foldM]. rewrite E1, E2. cbn [bind]. auto. }
  destruct a as [t p rho mu yg yp sv ns tv nT cm|eig].
  - pose proof (set_same s _ _ _ _ _ _ _ _ _ _ _ _ _ Fa) as E.
    destruct (setState s t p rho mu (firstn 10 yg) (firstn 6 yp) (firstn n sv) (Z.of_nat n) (firstn nt tv) (Z.of_nat nt) (nZ 100)) as [s'|e s'|] eqn:E2.
    + apply (ST (g, m, s')); cbn [doC sameInCpp doAction]; rewrite ?E, ?E2; reflexivity.
    + right. exists [], (CSet t p rho mu yg yp sv ns tv nT cm), l, g, m, s, e. split; [reflexivity|]. split; [reflexivity|]. split; [reflexivity|].
      split; [exists s'; exact E2|]. unfold runC. cbn [foldM doC]. rewrite E. reflexivity.
    + left. unfold runC, runActions. cbn [map foldM doC sameInCpp doAction]. rewrite E, E2. reflexivity.
  - destruct (setSourceTerms g eig m s) as [c'| |] eqn:E.
    + apply (ST c'); cbn [doC sameInCpp doAction]; exact E.
    + left. unfold runC, runActions. cbn [map foldM doC sameInCpp doAction]. rewrite E. reflexivity.
    + left. unfold runC, runActions. cbn [map foldM doC sameInCpp doAction]. rewrite E. reflexivity.
Qed.

Lemma fit_map n nt l : Forall (longEnough n nt) l -> Forall (fitAction 10 n nt) (map (sameInCpp n nt) l).
Proof.
  intros F. rewrite Forall_map. eapply Forall_impl; [|exact F]. intros [t p rho mu yg yp sv ns tv nT cm|eig]; [|intros _; exact I].
  cbn [longEnough sameInCpp fitAction]. intros (H1 & H2 & -> & H3 & -> & H4). rewrite !firstn_length.
  repeat split; lia.
Qed.

Lemma whole (buf src : list num) k : length src = k -> k <= length buf -> copyOut buf src k = Ok (overwritten buf src).
Proof. intros <- H. apply copy_ok. unfold overwritten. rewrite firstn_all. auto. Qed.

Lemma C80_program_ n nt p nu gr ox (co : coagObj) ta F k (m : model) l g :
  build false p n (newNucl nu) (newGrow gr) (newOxid ox) co nt (newTar ta) F k = Ok m ->
  p <> P_HMOM -> (p = P_MOMIC -> n <= 7) -> (readsTar nu ta -> 1 <= nt) -> ta <> T_AJ_RED -> Forall (longEnough n nt) l ->
  match runC (g, m, newState n nt) l with
  | Ok (g', m', s') =>
      runActions (g, m, newState n nt) (map (sameInCpp n nt) l) = Ok (g', m', s') /\
      (forall buf, n <= length buf -> getSootSources_C buf m' (Z.of_nat n) = Ok (overwritten buf (sootSources (sm_sources m')))) /\
      (forall buf, 11 <= length buf -> getGasSources_C buf m' = Ok (overwritten buf (gasSources (sm_sources m')))) /\
      (forall buf, nt <= length buf -> getTarSources_C buf m' (Z.of_nat nt) = Ok (overwritten buf (tarSources (sm_sources m'))))
  | Throw e =>
      p = P_QMOM /\ 34 < n /\ co_mech co <> C_NONE \/
      exists l1 a l2 g' m' s', l = l1 ++ a :: l2 /\ runC (g, m, newState n nt) l1 = Ok (g', m', s') /\ refused n nt s' a e
  | UB u => u = BadCast /\ p = P_SECT /\ co_mech co <> C_NONE
  end.
Proof.
  intros EB HP HM HT HA HL.
  assert (EG : enoughGas 10 (nu_class (newNucl (N:=N) nu)) (gr_class (newGrow (N:=N) gr)) (ox_class (newOxid ox)) (ta_class (newTar ta))).
  { apply enough_ten. destruct ta; exact HA. }
  pose proof (C61_ 10 n nt false p (newNucl nu) (newGrow gr) (newOxid ox) co (newTar ta) F k m (map (sameInCpp n nt) l) g
    EB HP HM eq_refl eq_refl HT EG ltac:(lia) (fit_map _ _ _ HL)) as K.
  destruct (run_same n nt l (g, m, newState n nt) HL) as [R|(l1 & a & l2 & g' & m' & s' & e & R1 & R2 & R3 & R4 & R5)].
  - rewrite R. destruct (runActions _ _) as [((g' & m') & s')|e|u].
    + destruct K as [_ (S1 & S2 & _ & S3)]. split; [reflexivity|].
      unfold getSootSources_C, getGasSources_C, getTarSources_C. rewrite !Nat2Z.id.
      split; [|split]; intros buf HB; apply whole; assumption.
    + left. exact K.
    + exact K.
  - rewrite R5. right. exists l1, a, l2, g', m', s'. auto.
Qed.

(** ** the buffers, whatever the model *)
Lemma C80_buffer_ (m : model) (buf out : list num) n : (0 <= n)%Z ->
  (getSootSources_C buf m n = Ok out <-> (n <= Z.of_nat (length (sootSources (sm_sources m))))%Z /\ (n <= Z.of_nat (length buf))%Z /\
     out = firstn (Z.to_nat n) (sootSources (sm_sources m)) ++ skipn (Z.to_nat n) buf) /\
  (getTarSources_C buf m n = Ok out <-> (n <= Z.of_nat (length (tarSources (sm_sources m))))%Z /\ (n <= Z.of_nat (length buf))%Z /\
     out = firstn (Z.to_nat n) (tarSources (sm_sources m)) ++ skipn (Z.to_nat n) buf).
Proof.
  intros H. unfold getSootSources_C, getTarSources_C. rewrite !copy_ok.
  split; (split; intros (A & B & C); (split; [lia|split; [lia|exact C]])).
Qed.
Lemma C80_short_ (m : model) (buf : list num) : length buf < 11 -> getGasSources_C buf m = UB OutOfBounds.
Proof. intros H. apply copy_not. right. exact H. Qed.

(** ** reading a state *)
Lemma C80_state_ (L : cmpLaws N) (s s' : state) n nt t p rho mu yg yp sv ns tv nT cm :
  longEnough n nt (CSet t p rho mu yg yp sv ns tv nT cm) ->
  setState_C s t p rho mu yg yp sv ns tv nT cm = SetOk s' ->
  (forall sp, exists y, nth_error yp (pahIdx sp) = Some y /\ get_yPAH_C s' sp = Ok y) /\
  (forall i x, i < n -> nth_error sv i = Some x -> nltb x (nZ 0) = false -> get_SootVar_C s' (Z.of_nat i) = Ok x) /\
  (forall i x, i < nt -> nth_error tv i = Some x -> nltb x (nZ 0) = false -> get_TarVar_C s' (Z.of_nat i) = Ok x) /\
  (forall i, (i < 0 \/ Z.of_nat n <= i)%Z -> get_SootVar_C s' i = UB OutOfBounds) /\
  (forall i, (i < 0 \/ Z.of_nat nt <= i)%Z -> get_TarVar_C s' i = UB OutOfBounds).
Proof.
  intros F E. pose proof (set_same s _ _ _ _ _ _ _ _ _ _ _ _ _ F) as E2. rewrite E in E2. symmetry in E2.
  cbn [longEnough] in F. destruct F as (H1 & H2 & -> & H3 & -> & H4).
  pose proof (describe L s (mkArgs t p rho mu (firstn 10 yg) (firstn 6 yp) (firstn n sv) (Z.of_nat n) (firstn nt tv) (Z.of_nat nt) (nZ 100))) as D.
  unfold call in D. cbn [aT aP arho amu ayGas ayPah asoot ansoot atar aNtar acMin] in D. rewrite E2 in D.
  inversion D as [? Ha Hs B1 B2| |]; subst.
  destruct Hs as (_ & _ & _ & _ & _ & _ & _ & (LS & CS) & _ & (LT & CT) & _ & Ep & _).
  cbn [asoot atar ayPah] in LS, CS, LT, CT, Ep. rewrite firstn_length_le in LS, LT by assumption.
  assert (FN : forall (l : list num) k i, i < k -> nth_error (firstn k l) i = nth_error l i).
  { intros l k i. revert l k. induction i as [|i IH]; intros [|a l] [|k] Hi; try reflexivity; try lia. apply IH. lia. }
  split; [|split; [|split; [|split]]].
  - intros sp. assert (Hi : pahIdx sp < 6) by (destruct sp; cbn; lia).
    destruct (nth_error yp (pahIdx sp)) as [y|] eqn:Ey; [|apply nth_error_None in Ey; lia].
    exists y. split; [reflexivity|]. unfold get_yPAH_C, vget. rewrite Ep, FN, Ey by assumption. reflexivity.
  - intros i x Hi Hx Hn. unfold get_SootVar_C, vgetZ, vget. destruct (Z.ltb_spec (Z.of_nat i) 0); [lia|]. rewrite Nat2Z.id.
    rewrite (CS i x) by (rewrite FN by assumption; exact Hx). rewrite Hn, andb_false_r. reflexivity.
  - intros i x Hi Hx Hn. unfold get_TarVar_C, vgetZ, vget. destruct (Z.ltb_spec (Z.of_nat i) 0); [lia|]. rewrite Nat2Z.id.
    rewrite (CT i x) by (rewrite FN by assumption; exact Hx). rewrite Hn, andb_false_r. reflexivity.
  - intros i Hi. unfold get_SootVar_C, vgetZ, vget. destruct (Z.ltb_spec i 0); [reflexivity|].
    destruct (nth_error (sootVar s') (Z.to_nat i)) eqn:Q; [|reflexivity].
    assert (Z.to_nat i < length (sootVar s')) by (apply nth_error_Some; congruence). lia.
  - intros i Hi. unfold get_TarVar_C, vgetZ, vget. destruct (Z.ltb_spec i 0); [reflexivity|].
    destruct (nth_error (tarVar s') (Z.to_nat i)) eqn:Q; [|reflexivity].
    assert (Z.to_nat i < length (tarVar s')) by (apply nth_error_Some; congruence). lia.
Qed.
(** biomass composition: five values, nothing else changes *)
Lemma C80_bio_ (s s' : state) (y : list num) : getyBio_C s y = Ok s' ->
  5 <= length y /\ yBio s' = firstn 5 y /\ s = with_yBio s' (yBio s).
Proof.
  unfold getyBio_C. destruct (copyRange y 5) as [z| |] eqn:E; [|discriminate|discriminate]. cbn [bind]. intros H. 
  destruct (le_lt_dec 5 (length y)) as [L|L].
  - rewrite copyRange_ok in E by lia. injection E as <-. injection H as <-. split; [exact L|]. split; [reflexivity|]. destruct s. reflexivity.
  - exfalso. unfold copyRange in E. cbn [Z.ltb Z.compare Z.to_nat] in E. change (Pos.to_nat 5) with 5 in E.
    destruct y as [|a [|b [|c [|d [|e y]]]]]; try discriminate E. cbn [length] in L. lia.
Qed.
End CallsProofs.
