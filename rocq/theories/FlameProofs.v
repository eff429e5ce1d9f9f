(** The burner-flame drivers: interpolation, one evaluation. *)
From Coq Require Import ZArith List Bool Reals Lra Lia.
From Verif Require Import Num Defs State Coag Nucl Growth Oxid Tar SootModel Qmom Calls Interp Flame XR XRLemmas NumLaws SpecInterp SpecState SpecChem SpecCoag SpecValid SpecPsd SpecSafe SpecNeeds SpecFlame
  InterpProofs StateProofs StateXR SafeProofs SafeMain HistProofs HistMain NeedsProofs NeedsMain SurfProofs.
Import ListNotations.
Local Open Scope R_scope.

(** ** interpolation *)
Lemma line_seg X : forall Y x, length X = length Y -> (2 <= length X)%nat -> increasing X ->
  exists i, segment X x i /\ lineAt X Y x = chord X Y i x.
Proof.
  induction X as [|a X IH]; intros Y x L L2 HI; [cbn in L2; lia|].
  destruct X as [|b X]; [cbn in L2; lia|]. destruct Y as [|c [|d Y]]; try (cbn in L; discriminate L).
  assert (HI' : increasing (b :: X)). { intros i j (A & B). apply (HI (S i) (S j)). cbn [length] in *. lia. }
  assert (CASE : (X = [] \/ x <= b) \/ (X <> [] /\ b < x)).
  { destruct X as [|e X]; [left; now left|]. destruct (Rle_dec x b); [left; now right|right; split; [discriminate|lra]]. }
  destruct CASE as [C|(C1 & C2)].
  - exists 0%nat. split.
    + split; [cbn [length]; lia|]. split; [now left|]. destruct C as [-> | C]; [left; reflexivity|right; exact C].
    + cbn [lineAt]. replace (match X with [] => true | _ :: _ => if Rle_dec x b then true else false end) with true; [reflexivity|].
      destruct C as [-> |C]; [reflexivity|]. destruct X; [reflexivity|]. destruct (Rle_dec x b); [reflexivity|lra].
  - destruct (IH (d :: Y) x) as (i & (S1 & S2 & S3) & E); [cbn in *; lia|destruct X; [congruence|cbn; lia]|exact HI'|].
    exists (S i). split.
    + split; [cbn [length] in *; lia|]. split; [right; destruct S2 as [-> |S2]; [cbn [nth]; lra|exact S2]|]. destruct S3 as [S3|S3]; [left; cbn [length] in *; lia|right; exact S3].
    + change (lineAt (a :: b :: X) (c :: d :: Y) x) with (if match X with [] => true | _ :: _ => if Rle_dec x b then true else false end then c + (x - a) * (d - c) / (b - a) else lineAt (b :: X) (d :: Y) x).
      replace (match X with [] => true | _ :: _ => if Rle_dec x b then true else false end) with false; [exact E|].
      destruct X; [congruence|]. destruct (Rle_dec x b); [lra|reflexivity].
Qed.
Lemma line_interp X Y x : length X = length Y -> (2 <= length X)%nat -> increasing X ->
  interp (N:=XR) (mkInterpObj (N:=XR) (map Fin X) (map Fin Y)) (Fin x) = Ok (Fin (lineAt X Y x)).
Proof. intros L L2 HI. destruct (line_seg X Y x L L2 HI) as (i & S1 & ->). now apply C53_segment. Qed.
(** inside the table the value lies between two entries *)
Lemma line_between X Y x : length X = length Y -> (2 <= length X)%nat -> increasing X -> nth 0 X 0 <= x <= nth (length X - 1) X 0 ->
  exists t c d, 0 <= t <= 1 /\ In c Y /\ In d Y /\ lineAt X Y x = c + t * (d - c).
Proof.
  intros L L2 HI (B1 & B2). destruct (line_seg X Y x L L2 HI) as (i & (S1 & S2 & S3) & ->).
  assert (LT : nth i X 0 < nth (S i) X 0) by (apply HI; lia).
  assert (A1 : nth i X 0 <= x) by (destruct S2 as [-> |S2]; assumption).
  assert (A2 : x <= nth (S i) X 0). { destruct S3 as [S3|S3]; [|exact S3]. replace (S i) with (length X - 1)%nat by lia. exact B2. }
  exists ((x - nth i X 0) / (nth (S i) X 0 - nth i X 0)), (nth i Y 0), (nth (S i) Y 0).
  split; [split; [apply Rmult_le_pos; [lra|left; apply Rinv_0_lt_compat; lra]|]|].
  { apply (Rmult_le_reg_r (nth (S i) X 0 - nth i X 0)); [lra|]. unfold Rdiv. rewrite Rmult_assoc, Rinv_l by lra. lra. }
  split; [apply nth_In; lia|]. split; [apply nth_In; lia|]. unfold chord. field. lra.
Qed.
Lemma line_pos X Y x : length X = length Y -> (2 <= length X)%nat -> increasing X -> nth 0 X 0 <= x <= nth (length X - 1) X 0 ->
  (forall y, In y Y -> 0 < y) -> 0 < lineAt X Y x.
Proof.
  intros L L2 HI B H. destruct (line_between X Y x L L2 HI B) as (t & c & d & T & Hc & Hd & ->). apply H in Hc. apply H in Hd.
  replace (c + t * (d - c)) with ((1 - t) * c + t * d) by ring. destruct (Rlt_dec t 1).
  - assert (0 < (1 - t) * c) by (apply Rmult_lt_0_compat; lra). assert (0 <= t * d) by (apply Rmult_le_pos; lra). lra.
  - replace t with 1 by lra. lra.
Qed.
Lemma line_unit X Y x : length X = length Y -> (2 <= length X)%nat -> increasing X -> nth 0 X 0 <= x <= nth (length X - 1) X 0 ->
  (forall y, In y Y -> 0 <= y <= 1) -> 0 <= lineAt X Y x <= 1.
Proof.
  intros L L2 HI B H. destruct (line_between X Y x L L2 HI B) as (t & c & d & T & Hc & Hd & ->). apply H in Hc. apply H in Hd.
  replace (c + t * (d - c)) with ((1 - t) * c + t * d) by ring.
  assert (0 <= (1 - t) * c <= (1 - t) * 1) by (split; [apply Rmult_le_pos; lra|apply Rmult_le_compat_l; lra]).
  assert (0 <= t * d <= t * 1) by (split; [apply Rmult_le_pos; lra|apply Rmult_le_compat_l; lra]). lra.
Qed.

(** the interpolators of a well-formed flame *)
Definition tabOf (f : flow) (Y : list R) : interpObj (N:=XR) := mkInterpObj (N:=XR) (map Fin (w_z f)) (map Fin Y).
Definition tablesOf (f : flow) : tables (N:=XR) :=
  mkTables (N:=XR) (tabOf f (w_v f)) (tabOf f (w_T f)) (tabOf f (w_rho f)) (tabOf f (w_mu f)) (tabOf f (w_y f O2)) (tabOf f (w_y f O_)) (tabOf f (w_y f H2)) (tabOf f (w_y f H_))
    (tabOf f (w_y f OH)) (tabOf f (w_y f H2O)) (tabOf f (w_y f CO)) (tabOf f (w_y f C2H2)).
Lemma new_ok X Y : length Y = length X -> increasing X -> newInterp (N:=XR) (map Fin X) (map Fin Y) = Ok (mkInterpObj (N:=XR) (map Fin X) (map Fin Y)).
Proof. intros L HI. destruct (C53_ctor X Y) as [(E & _)|(_ & H)]; [exact E|]. exfalso. apply H. auto. Qed.
Lemma in_given sp : given sp <-> sp <> C6H6 /\ sp <> C_ /\ sp <> CO2.
Proof. unfold given. destruct sp; cbn [In]; split; intros H; try (repeat split; discriminate); try tauto; try (exfalso; destruct H as (A & B & C); congruence); exfalso; intuition discriminate. Qed.
Lemma tables_ok f : wellFormed f -> makeTables (columnsOf f) = Ok (tablesOf f).
Proof.
  intros (L2 & HI & L & LT & LR & LM & LY). unfold makeTables, columnsOf. cbn [c_z c_v c_T c_rho c_mu c_O2 c_O c_H2 c_H c_OH c_H2O c_CO c_C2H2].
  assert (G : forall sp, given sp -> newInterp (N:=XR) (map Fin (w_z f)) (map Fin (w_y f sp)) = Ok (tabOf f (w_y f sp))) by (intros; apply new_ok; auto).
  rewrite (new_ok _ (w_v f)) by auto. cbn [bind]. rewrite (new_ok _ (w_T f)) by auto. cbn [bind]. rewrite (new_ok _ (w_rho f)) by auto. cbn [bind]. rewrite (new_ok _ (w_mu f)) by auto. cbn [bind].
  rewrite !G by (unfold given; cbn [In]; tauto). reflexivity.
Qed.
Section Tab.
Context (f : flow) (W : wellFormed f).
Lemma at_any Y z : length Y = length (w_z f) -> interp (tabOf f Y) (Fin z) = Ok (Fin (lineAt (w_z f) Y z)).
Proof. intros L. destruct W as (L2 & HI & _). apply line_interp; auto. Qed.
Lemma at_y sp z : given sp -> interp (tabOf f (w_y f sp)) (Fin z) = Ok (Fin (lineAt (w_z f) (w_y f sp) z)).
Proof. intros G. apply at_any. apply W. exact G. Qed.
Lemma at_v z : interp (t_v (tablesOf f)) (Fin z) = Ok (Fin (velAt f z)).
Proof. cbn [t_v tablesOf]. apply at_any, W. Qed.
Lemma at_T z : interp (t_T (tablesOf f)) (Fin z) = Ok (Fin (gT (gasAt f z))).
Proof. cbn [t_T tablesOf]. apply at_any, W. Qed.
Lemma at_rho z : interp (t_rho (tablesOf f)) (Fin z) = Ok (Fin (rhoAt f z)).
Proof. cbn [t_rho tablesOf]. apply at_any, W. Qed.
Lemma at_mu z : interp (t_mu (tablesOf f)) (Fin z) = Ok (Fin (gMu (gasAt f z))).
Proof. cbn [t_mu tablesOf]. apply at_any, W. Qed.
Definition full8 z : list xr := map (fun sp => Fin (lineAt (w_z f) (w_y f sp) z)) [O2; O_; H2; H_; OH; H2O; CO; C2H2].
Definition half8 z : list xr := map (fun sp => Fin (lineAt (w_z f) (w_y f sp) z)) [H_; H2; O_; O2; OH; H2O; CO; C2H2].
Lemma full_ok z : mapM (fun o => interp o (Fin z)) (gasFull (tablesOf f)) = Ok (full8 z).
Proof.
  unfold gasFull, tablesOf. cbn [t_O2 t_O t_H2 t_H t_OH t_H2O t_CO t_C2H2 mapM].
  do 8 (rewrite at_y by (unfold given; cbn [In]; tauto); cbn [bind]). reflexivity.
Qed.
Lemma half_ok z : mapM (fun o => interp o (Fin z)) (gasHalf (tablesOf f)) = Ok (half8 z).
Proof.
  unfold gasHalf, tablesOf. cbn [t_O2 t_O t_H2 t_H t_OH t_H2O t_CO t_C2H2 mapM].
  do 8 (rewrite at_y by (unfold given; cbn [In]; tauto); cbn [bind]). reflexivity.
Qed.
Lemma mapM_seq {A B} (F : A -> B) (l : list A) (q : nat -> res B) : (forall i x, nth_error l i = Some x -> q i = Ok (F x)) -> mapM q (seq 0 (length l)) = Ok (map F l).
Proof.
  assert (G : forall (l : list A) k (q : nat -> res B), (forall i x, nth_error l i = Some x -> q (k + i)%nat = Ok (F x)) -> mapM q (seq k (length l)) = Ok (map F l)).
  { clear. induction l as [|a l IH]; intros k q H; [reflexivity|]. cbn [length seq mapM map]. pose proof (H 0%nat a eq_refl) as H0. rewrite Nat.add_0_r in H0. rewrite H0. cbn [bind].
    rewrite (IH (S k)); [reflexivity|]. intros i x E. replace (S k + i)%nat with (k + S i)%nat by lia. now apply H. }
  exact (G l 0%nat q).
Qed.
Lemma vget_some {A} (v : list A) i x : nth_error v i = Some x -> vget v i = Ok x.
Proof. intros H. unfold vget. now rewrite H. Qed.
Lemma scaled_ok n z M : length M = n -> scaled (N:=XR) (tablesOf f) n (Fin z) M = Ok (times (rhoAt f z) M).
Proof.
  intros <-. unfold scaled, times. apply (mapM_seq (fun x => xmul x (Fin (rhoAt f z)))). intros i x E.
  etransitivity; [apply (f_equal (fun r => bind r _)); apply (vget_some (A:=@num XR)); exact E|]. cbn [bind]. rewrite at_rho. reflexivity.
Qed.
Lemma combine_nth {A B} (l : list A) : forall (l' : list B) i x y, nth_error (combine l l') i = Some (x, y) -> nth_error l i = Some x /\ nth_error l' i = Some y.
Proof. induction l as [|a l IH]; intros [|b l'] [|i] x y H; cbn in *; try discriminate; [now injection H as -> ->|auto]. Qed.
Lemma advance_ok n z h m M : length M = n -> length (soots m) = n ->
  advance (N:=XR) (tablesOf f) n (Fin z) (Fin h) m M = Ok (along M (soots m) h (rhoAt f z) (velAt f z)).
Proof.
  intros LM LS. unfold advance, along. replace n with (length (combine M (soots m))) by (rewrite combine_length; lia). apply mapM_seq. intros i (x & y) E.
  apply combine_nth in E. destruct E as (E1 & E2). 
  etransitivity; [apply (f_equal (fun r => bind r _)); apply (vget_some (A:=@num XR)); exact E1|]. cbn [bind].
  etransitivity; [apply (f_equal (fun r => bind r _)); apply (vget_some (A:=@num XR)); exact E2|]. cbn [bind]. rewrite at_rho, at_v. reflexivity.
Qed.
End Tab.

(** ** acceptance *)
Lemma flame_accept (s : state (N:=XR)) n t p rho mu yg M c : 0 < t -> 0 < p -> 0 < rho -> 0 < mu -> 0 < c -> (forall y, In y yg -> xltb (Fin 1) y = false) ->
  st_nsoot s = Z.of_nat n -> length M = n -> st_Ntar s = 0%Z -> length (yPah s) = 6%nat ->
  exists v, setState s (Fin t) (Fin p) (Fin rho) (Fin mu) yg (repeat (Fin 0) 6) M (Z.of_nat n) [] 0 (Fin c) = SetOk (stores s (Fin t) (Fin p) (Fin rho) (Fin mu) yg (repeat (Fin 0) 6) (Z.of_nat n) 0 (Fin c) (v, [])) /\
    clipNeg (N:=XR) (Z.of_nat n) M = Ok v.
Proof.
  intros Pt Pp Pr Pm Pc HG NS LM NT LP.
  destruct (accept_ok XR_cmpLaws s (mkArgs (Fin t : @num XR) (Fin p) (Fin rho) (Fin mu) yg (repeat (Fin 0) 6) M (Z.of_nat n) [] 0 (Fin c))) as (s' & E & _).
  - intros e q Hin. unfold checks in Hin. cbn [aT aP arho amu ayGas ayPah asoot ansoot atar aNtar acMin In] in Hin.
    assert (K : forall x, 0 < x -> nleb (Num:=XR) (Fin x) (nZ 0) <> true).
    { intros x Hx. change (xleb (Fin x) (Fin 0) <> true). rewrite xleb_false by lra. discriminate. }
    destruct Hin as [Hin|[Hin|[Hin|[Hin|[Hin|[Hin|[Hin|[Hin|[Hin|[Hin|[Hin|[]]]]]]]]]]]]; injection Hin as <- <-; try (now apply K).
    + intros (i & x & Ex & Hi & _). assert (i < length M)%nat by (apply nth_error_Some; intros Q; pose proof (eq_trans (eq_sym Q) Ex) as Q'; discriminate Q'). lia.
    + intros (i & x & Ex & _). destruct i; discriminate.
    + intros (y & Hy & H1). apply HG in Hy. change (xltb (Fin 1) y = true) in H1. congruence.
    + intros H. apply H. symmetry. exact LP.
    + intros (y & Hy & H1). apply (repeat_spec 6) in Hy. subst y. change (xltb (Fin 0) (Fin 0) = true \/ xltb (Fin 1) (Fin 0) = true) in H1.
      rewrite (xltb_false 0 0), (xltb_false 1 0) in H1 by lra. destruct H1; discriminate.
    + change (xltb (Fin 1) (fold_left xadd six (Fin 0)) <> true). rewrite six_ok. discriminate.
  - cbn [asoot]. rewrite NS. lia.
  - cbn [atar]. rewrite NT. cbn. lia.
  - unfold call in E. cbn [aT aP arho amu ayGas ayPah asoot ansoot atar aNtar acMin] in E.
    pose proof (set_gives _ _ _ _ _ _ _ _ _ _ _ _ _ E) as (v & w & E1 & E2 & ->). rewrite NT in E2. unfold clipNeg in E2. cbn in E2. injection E2 as <-. rewrite NS in E1. exists v. split; [exact E|exact E1].
Qed.

(** ** one evaluation *)
Definition flameCoag : coagObj (N:=XR) := set_FM_multiplier (newCoag C_HM) (ndiv (ndiv (nZ 9) (nZ 2)) (nlit 22 (-1))).
Lemma flame_build p n : flameModel (N:=XR) p n = build false p n (newNucl N_LL) (newGrow G_LL) (newOxid O_LL) flameCoag 0 (newTar T_NONE) (nZ 2) 100.
Proof. unfold flameModel, constructPtr, build, flameCoag. cbn [co_mech newCoag newTar ta_mech set_FM_multiplier]. destruct (derivedCheck p n C_HM T_NONE); reflexivity. Qed.
Lemma flame_built p n : flameSize p n -> exists m, flameModel (N:=XR) p n = Ok m.
Proof.
  rewrite flame_build. unfold flameSize, build, derivedCheck, flameCoag. cbn [co_mech ta_mech set_FM_multiplier newCoag newTar]. destruct p; try contradiction; intros H.
  - subst n. eexists. reflexivity.
  - destruct H as (H & E). apply Nat.even_spec in E. destruct E as (q & ->). rewrite Nat.mul_comm, Nat.mod_mul by lia. destruct (Nat.ltb_spec (q * 2) 1); [lia|]. eexists. reflexivity.
  - destruct (Nat.ltb_spec n 3); [lia|]. destruct (Nat.ltb_spec 8 n); [lia|]. eexists. reflexivity.
Qed.

Lemma static_kept g eig (m : model (N:=XR)) s g' m' s' : sm_psd m <> P_SECT -> setSourceTerms g eig m s = Ok (g', m', s') -> g' = g.
Proof.
  intros H E. unfold setSourceTerms in E. destruct (sm_psd m); try congruence; try discriminate E; apply bind_ok in E; destruct E as ((a & b) & _ & E); injection E as <- _ _; reflexivity.
Qed.
Section Eval.
Context (p : psdMech) (n : nat) (m0 : model (N:=XR)) (E0 : flameModel (N:=XR) p n = Ok m0) (SZ : flameSize p n).
Definition ready (c : option xr * model (N:=XR) * state (N:=XR)) : Prop :=
  let '(g, m, s) := c in g = None /\ sameModel m0 m /\ sizedModel 8 n 0 m /\ fitState 8 n 0 s.
Let EB : build false p n (newNucl N_LL) (newGrow G_LL) (newOxid O_LL) flameCoag 0 (newTar T_NONE) (nZ 2) 100 = Ok m0.
Proof. rewrite <- flame_build. exact E0. Qed.
Lemma eight_enough : enoughGas 8 N_LL G_LL O_LL T_NONE.
Proof. intros sp [H|[H|[H|H]]]; destruct sp; try discriminate H; cbn; lia. Qed.
Lemma sized0 : sizedModel 8 n 0 m0.
Proof.
  apply (build_sized 8 n 0 _ _ _ _ _ _ _ _ _ _ EB); try reflexivity.
  - intros ->. exact SZ.
  - intros ->. cbn in SZ. lia.
  - intros [H|[H|H]]; try discriminate H. now destruct H.
  - exact eight_enough.
Qed.
Lemma facts0 : fits m0 /\ nu_class (sm_nucl m0) = N_LL /\ nu_mech (sm_nucl m0) = N_LL /\ sm_psd m0 = p /\ sm_grow m0 = newGrow G_LL /\ sm_oxid m0 = newOxid O_LL /\ sm_coag m0 = flameCoag /\ sm_tar m0 = newTar T_NONE.
Proof.
  destruct (build_fits _ _ _ _ _ _ _ _ _ _ _ _ EB) as (F & EN).
  - destruct p; try contradiction; auto.
  - destruct (build_facts _ _ _ _ _ _ _ _ _ _ _ _ EB) as (E1 & E2 & _). rewrite EN. split; [exact F|]. split; [reflexivity|]. split; [reflexivity|]. split; [exact E1|].
    revert EB. clear. unfold build. destruct (derivedCheck _ _ _ _); cbn [bind]; try discriminate. intros H. apply (f_equal (fun r => match r with Ok x => x | _ => m0 end)) in H. cbv beta iota in H. rewrite <- H. cbn [sm_grow sm_oxid sm_coag sm_tar]. auto.
Qed.
Lemma not_sect : p <> P_SECT.
Proof. intros ->. exact SZ. Qed.
Lemma ready0 : ready (None, m0, newState n 0).
Proof. split; [reflexivity|]. split; [apply sameModel_refl|]. split; [exact sized0|]. apply new_sized. lia. Qed.

(** the gas values and the soot of one evaluation *)
Record suits (gs : gas) (yg : list xr) : Prop := {
  su_T : 0 < gT gs; su_P : 0 < gP gs; su_rho : 0 < gRho gs; su_mu : 0 < gMu gs; su_c : 0 < gCMin gs;
  su_y : forall sp, gY gs sp <= 1; su_pah : forall sp, gPah gs sp = 0; su_len : (8 <= length yg)%nat;
  su_le : forall y, In y yg -> xltb (Fin 1) y = false;
  su_O2 : nth_error yg 0 = Some (Fin (gY gs O2)); su_C2H2 : nth_error yg 7 = Some (Fin (gY gs C2H2)) }.
Lemma eval_ok eig m s gs yg M : ready (None, m, s) -> suits gs yg -> length M = n ->
  exists s1 m' s', setState s (Fin (gT gs)) (Fin (gP gs)) (Fin (gRho gs)) (Fin (gMu gs)) yg (repeat (Fin 0) 6) M (Z.of_nat n) [] 0 (Fin (gCMin gs)) = SetOk s1 /\
    setSourceTerms None eig m s1 = Ok (None, m', s') /\ ready (None, m', s') /\ fresh eig m0 n gs M (soots m') /\ length (soots m') = n.
Proof.
  intros (_ & SM & SD & FS) SU LM. destruct facts0 as (FI & NC & NM & PS & GR & OX & CO & TA). pose proof FS as (F1 & F2 & F3 & F4 & F5 & F6 & F7 & F8).
  destruct (flame_accept s n (gT gs) (gP gs) (gRho gs) (gMu gs) yg M (gCMin gs)) as (v & E1 & V1); try apply SU; auto.
  destruct (flame_accept (newState n 0) n (gT gs) (gP gs) (gRho gs) (gMu gs) (map Fin (gasVec (gY gs))) M (gCMin gs)) as (v' & E2 & V2); try apply SU; auto.
  { intros y Hy. apply in_map_iff in Hy. destruct Hy as (r & <- & Hr). unfold gasVec in Hr. apply in_map_iff in Hr. destruct Hr as (sp & <- & _). apply xltb_false. pose proof (su_y _ _ SU sp). lra. }
  rewrite V1 in V2. injection V2 as <-. clear V1.
  set (s1 := stores s _ _ _ _ yg _ _ _ _ _) in E1. set (s0 := stores (newState n 0) _ _ _ _ _ _ _ _ _ _) in E2.
  assert (FS1 : fitState 8 n 0 s1).
  { pose proof (set_safe 8 n 0 s (Fin (gT gs)) (Fin (gP gs)) (Fin (gRho gs)) (Fin (gMu gs)) yg (repeat (Fin 0) 6) M (Z.of_nat n) [] 0 (Fin (gCMin gs)) FS) as K. rewrite E1 in K. apply K.
    split; [apply SU|]. auto. }
  (* the call returns *)
  pose proof (call_safe 8 n 0 (t:=false) (b:=false) None eig m s1 SD FS1) as K. unfold SafeProofs.wp in K.
  assert (PM : sm_psd m = p) by (destruct SM as (A & _); congruence).
  assert (K1 : exists g' m' s', setSourceTerms None eig m s1 = Ok (g', m', s') /\ sizedModel 8 n 0 m' /\ fitState 8 n 0 s').
  { rewrite PM in K. destruct (setSourceTerms None eig m s1) as [((g' & m') & s')|e|u].
    - destruct K as (A & B & _); [intros _ -> ?; cbn in SZ; lia|intros _ H; now destruct (not_sect H)|]. cbn [fst snd] in *. eauto 8.
    - assert (false = true); [|discriminate]. apply K; [intros _ -> ?; cbn in SZ; lia|intros _ H; now destruct (not_sect H)].
    - assert (H : match u with BadCast => false = true | _ => False end); [|destruct u; try contradiction; discriminate]. apply K; [intros _ -> ?; cbn in SZ; lia|intros _ H; now destruct (not_sect H)]. }
  clear K. destruct K1 as (g' & m' & s' & EC & SD' & FS').
  assert (g' = None) as -> by (eapply static_kept; [|exact EC]; rewrite PM; exact not_sect).
  pose proof SM as (M1 & M2 & M3 & M4 & M5 & M6 & M7 & M8 & MP). assert (NC' : nu_class (sm_nucl m) = N_LL) by congruence. assert (NM' : nu_mech (sm_nucl m) = N_LL) by congruence.
  assert (FI' : fits m) by (eapply fits_same; eauto).
  exists s1, m', s'. split; [exact E1|]. split; [exact EC|]. split; [|split].
  - split; [reflexivity|]. split; [|auto]. eapply sameModel_trans; [exact SM|]. apply (call_kept None eig m s1 None m' s' FI'); [rewrite NC'; discriminate|rewrite NM'; discriminate|exact EC].
  - (* fresh *)
    assert (X1 : sameOutcome (setSourceTerms None eig m0 s0) (setSourceTerms None eig m s0)).
    { apply C46_same; auto; [apply same_refl|rewrite NC; discriminate|rewrite NM; discriminate]. }
    assert (X2 : onlyRest s1 (setSourceTerms None eig m s0) (setSourceTerms None eig m (mix s0 s1))).
    { apply call_mix.
      - constructor; rewrite ?NC', <- ?M4, <- ?M5, <- ?M6, <- ?M7, ?GR, ?OX, ?CO, ?TA; cbn [newGrow newOxid newTar gr_class ox_class ta_class].
        + unfold s0, s1, stores. cbn [yGas]. intros sp [H|[H|[H|H]]]; destruct sp; try discriminate H; cbn [gasIdx]; [|etransitivity; [exact (su_C2H2 _ _ SU)|reflexivity]|etransitivity; [exact (su_O2 _ _ SU)|reflexivity]].
          etransitivity; [exact (su_C2H2 _ _ SU)|reflexivity].
        + intros H; discriminate H.
        + intros [H|[H|H]]; try discriminate H. now destruct H.
        + intros [H|H]; discriminate H.
        + intros H; reflexivity.
        + reflexivity.
        + reflexivity.
        + reflexivity.
      - unfold tagged. rewrite <- M3, <- M6, <- M7, NC, NM, CO, TA. cbn. auto. }
    assert (X3 : sameOutcome (setSourceTerms None eig m (mix s0 s1)) (setSourceTerms None eig m s1)).
    { apply C46_same; auto; [apply sameModel_refl| |rewrite NC'; discriminate|rewrite NM'; discriminate].
      unfold sameInputs. split; [reflexivity|]. unfold mix, s0, s1, stores. cbn [wts absc newState]. unfold zeros. rewrite !repeat_length. auto. }
    rewrite EC in X3. unfold sameOutcome, onlyRest in *.
    destruct (setSourceTerms None eig m (mix s0 s1)) as [((a1 & a2) & a3)| |]; try contradiction. destruct X3 as (_ & S3 & _).
    destruct (setSourceTerms None eig m s0) as [((b1 & b2) & b3)| |]; try contradiction. destruct X2 as (_ & -> & _).
    destruct (setSourceTerms None eig m0 s0) as [((c1 & c2) & c3)| |] eqn:EF; try contradiction. destruct X1 as (_ & S1 & _).
    exists c1, c2, c3. split.
    + unfold runActions. cbn [foldM doAction]. replace (map Fin (pahVec (gPah gs))) with (repeat (Fin 0) 6).
      * etransitivity; [apply (f_equal (fun r => bind (match r with SetOk s2 => Ok (None, m0, s2) | SetThrow _ s2 => Ok (None, m0, s2) | SetUB => UB OutOfBounds end) _)); exact E2|]. cbn [bind].
        etransitivity; [apply (f_equal (fun r => bind r _)); exact EF|]. reflexivity.
      * unfold pahVec, allPah. cbn [map repeat]. rewrite !(su_pah _ _ SU). reflexivity.
    + unfold soots. congruence.
  - destruct SD' as (_ & _ & (L & _) & _). exact L.
Qed.
End Eval.
