(** The interpolative closure model when some moments vanish. *)
From Coq Require Import ZArith List Bool Reals Lra Lia.
From Verif Require Import Num Defs Binomial State Coag Nucl Growth Oxid Tar SootModel Momic Calls XR XRLemmas NumLaws SpecChem SpecCoag SpecValid SpecRates SpecGas SpecPah SpecPsd SpecSect SpecQmom SpecBinomial SpecLogn SpecMomic
  CoagProofs StateXR ValidProofs InterpProofs GasProofs RateProofs PsdProofs PahProofs PahMain MonoProofs ChemAll SectProofs SectMain QmomRun LognProofs LognMain LognFinal MomicProofs MomicMain MomicRun MomicFinal.
Import ListNotations.
Local Open Scope R_scope.

(** moment of order z/6 that the model reads off its difference table *)
Definition tabMom (n : nat) (row : list xr) (z : Z) : R := match momMr (N:=XR) n row (Fin (IZR z / 6)) with Fin v => v | _ => 0 end.
Lemma tab_val n row z : momMr (N:=XR) n row (Fin (IZR z / 6)) = Fin (tabMom n row z).
Proof. unfold tabMom. destruct (momMr_fin n row (Fin (IZR z / 6))) as (v & E & _). rewrite E. reflexivity. Qed.

Lemma fill_any n (row : list xr) first cnt (old : list xr) : (cnt <= length old)%nat ->
  exists v, fillFrac (N:=XR) n row first cnt old = Ok v /\ length v = length old /\
    forall i, (i < cnt)%nat -> vget v i = Ok (Fin (tabMom n row (first + 2 * Z.of_nat i))).
Proof.
  intros HL. unfold fillFrac. destruct (Nat.ltb_spec (@length (@num XR) old) cnt) as [K|K]; [exact (False_ind _ (Nat.lt_irrefl _ (Nat.lt_le_trans _ _ _ K HL)))|].
  eexists. split; [reflexivity|]. split.
  - rewrite app_length, map_length, seq_length, skipn_length. rewrite Nat.add_comm; exact (Nat.sub_add _ _ HL).
  - intros i Hi. unfold vget. rewrite nth_error_app1 by (rewrite map_length, seq_length; auto). rewrite nth_error_map.
    rewrite (nth_error_nth' (seq 0 cnt) 0%nat) by (rewrite seq_length; auto). rewrite seq_nth by auto. cbn [option_map Nat.add].
    f_equal. change (@ndiv XR) with xdiv. change (@nZ XR 6) with (Fin 6). match goal with |- context [@nZ XR ?z] => change (@nZ XR z) with (Fin (IZR z)) end.
    rewrite xdiv_fin by lra. apply tab_val.
Qed.
Definition logRow (M : list R) : list xr := diffRow (N:=XR) (length M) (map (fun k => xlog10 (Fin (el M k))) (seq 0 (length M))).
Lemma moments_any M d : (3 <= length M <= 7)%nat -> id_Nmom d = length M -> length (id_Mp6 d) = 22%nat -> length (id_Mq6 d) = 30%nat ->
  exists p6 q6, setMoments (N:=XR) npMOMIC nqMOMIC d (map Fin M) = Ok (mkInterp (length M) (logRow M) p6 q6 (id_mass d)) /\
    length p6 = 22%nat /\ length q6 = 30%nat /\
    (forall i, (i < cntP (length M))%nat -> vget p6 i = Ok (Fin (tabMom (length M) (logRow M) (2 * Z.of_nat i - 4)))) /\
    (forall i, (0 <= i < Z.of_nat (cntQ (length M)))%Z -> vgetZ q6 i = Ok (Fin (tabMom (length M) (logRow M) (2 * i - 3)))).
Proof.
  intros L EN LP LQ. unfold setMoments. rewrite EN.
  assert (T : set_diffTable (N:=XR) (length M) (map Fin M) = Ok (logRow M)).
  { unfold set_diffTable. rewrite (mapM_ok _ (fun k => xlog10 (Fin (el M k)))).
    - cbn [bind]. reflexivity.
    - intros r Hr. apply in_seq in Hr. rewrite vget_fin by lia. reflexivity. }
  change (@num XR) with xr in *. rewrite T. cbn [bind].
  destruct (cnts _ L) as (C1 & C2). rewrite C1, C2.
  destruct (fill_any (length M) (logRow M) (-4) (cntP (length M)) (id_Mp6 d)) as (p6 & E1 & L1 & H1); [change (@num XR) with xr in *; rewrite LP; unfold cntP; lia|].
  destruct (fill_any (length M) (logRow M) (-3) (cntQ (length M)) (id_Mq6 d)) as (q6 & E2 & L2 & H2); [change (@num XR) with xr in *; rewrite LQ; unfold cntQ; lia|].
  cbn [bind]. change (@num XR) with xr in *. rewrite E1. cbn [bind]. rewrite E2. cbn [bind]. exists p6, q6. split; [reflexivity|].
  split; [now rewrite L1|]. split; [now rewrite L2|]. split.
  - intros i Hi. rewrite H1 by auto. do 3 f_equal. lia.
  - intros i Hi. unfold vgetZ. destruct (Z.ltb_spec i 0); [lia|]. rewrite H2 by lia. do 3 f_equal. lia.
Qed.

(** ** a vanishing moment *)
Lemma add_bad x y : xfin x = false \/ xfin y = false -> xfin (xadd x y) = false.
Proof. destruct x, y; cbn; intuition discriminate. Qed.
Lemma sub_bad x y : xfin x = true -> xfin y = false -> xfin (xsub y x) = false.
Proof. destruct x, y; cbn; auto; discriminate. Qed.
Lemma mul_bad a y : xfin y = false -> xfin (xmul (Fin a) y) = false.
Proof. destruct y; cbn [xfin]; try discriminate; intros _; unfold xmul, signed; repeat match goal with |- context [if ?c then _ else _] => destruct c end; reflexivity. Qed.

Lemma some_lt {A} (l : list A) i x : nth_error l i = Some x -> (i < length l)%nat.
Proof. intros E. apply nth_error_Some. rewrite E. discriminate. Qed.

(** index [j] holds the first entry that is not finite *)
Definition firstBad (l : list xr) (j : nat) : Prop :=
  (exists x, nth_error l j = Some x /\ xfin x = false) /\ forall i x, (i < j)%nat -> nth_error l i = Some x -> xfin x = true.
Lemma diffs_nth : forall (l : list xr) i a b, nth_error l i = Some a -> nth_error l (S i) = Some b -> nth_error (diffs (N:=XR) l) i = Some (xsub b a).
Proof.
  induction l as [|x l IH]; intros i a b; [destruct i; discriminate|]. destruct l as [|y l]; [destruct i as [|[|i]]; discriminate|].
  destruct i as [|i]; cbn [nth_error diffs]; [intros [= ->] [= ->]; reflexivity|]. intros A B. exact (IH i a b A B).
Qed.
Lemma diffs_len : forall (l : list xr), length (diffs (N:=XR) l) = (length l - 1)%nat.
Proof. induction l as [|x l IH]; [reflexivity|]. destruct l as [|y l]; [reflexivity|]. cbn [diffs length] in *. rewrite IH. lia. Qed.
Lemma row_bad j : forall fuel (l : list xr), (j < fuel)%nat -> firstBad l j -> firstBad (diffRow (N:=XR) fuel l) j.
Proof.
  induction j as [|j IH]; intros fuel l Hf ((x & Ex & Bx) & Hg); (destruct fuel as [|fuel]; [lia|]).
  - destruct l as [|y l]; [discriminate|]. cbn in Ex. injection Ex as ->. split; [exists x; split; [reflexivity|exact Bx]|intros; lia].
  - destruct l as [|y l]; [discriminate|]. cbn [diffRow].
    assert (FB : firstBad (diffs (N:=XR) (y :: l)) j).
    { destruct (nth_error (y :: l) j) as [z|] eqn:Ez.
      2: { apply nth_error_None in Ez. assert (nth_error (y :: l) (S j) <> None) as K by (rewrite Ex; discriminate). apply nth_error_Some in K. lia. }
      split.
      - exists (xsub x z). split; [exact (diffs_nth _ _ _ _ Ez Ex)|]. apply sub_bad; auto. apply (Hg j z); auto.
      - intros i v Hi Ev. assert (A : exists a, nth_error (y :: l) i = Some a). { destruct (nth_error (y :: l) i) eqn:E; eauto. apply nth_error_None in E. apply some_lt in Ex. lia. }
        assert (B : exists a, nth_error (y :: l) (S i) = Some a). { destruct (nth_error (y :: l) (S i)) eqn:E; eauto. apply nth_error_None in E. apply some_lt in Ex. lia. }
        destruct A as (a & A), B as (b & B). pose proof (eq_trans (eq_sym Ev) (diffs_nth _ _ _ _ A B)) as EV. assert (v = xsub b a) as -> by congruence.
        pose proof (Hg i a ltac:(lia) A). pose proof (Hg (S i) b ltac:(lia) B). destruct a, b; try discriminate. reflexivity. }
    specialize (IH fuel (diffs (N:=XR) (y :: l)) ltac:(lia) FB). destruct IH as ((v & Ev & Bv) & IHg). split.
    + exists v. split; [exact Ev|exact Bv].
    + intros [|i] w Hi Ew; cbn [nth_error] in Ew; [injection Ew as <-; apply (Hg 0%nat y); [lia|reflexivity]|]. apply (IHg i w); [lia|exact Ew].
Qed.
(** partial sums of Newton's formula stay finite up to, and are not finite after, the first bad difference *)
Lemma newton_bad (d : list xr) r : forall c i l coef, (xfin l = false \/ exists j x, (i <= j < i + c)%nat /\ nth_error d j = Some x /\ xfin x = false) ->
  xfin (fst (fold_left (fun '(l, coef) k => (@nadd XR l (@nmul XR coef (nth k d (@nZ XR 0))), @nmul XR coef (@ndiv XR (@nsub XR (Fin r) (nn k)) (nn (S k))))) (seq i c) (l, Fin coef))) = false.
Proof.
  induction c as [|c IH]; intros i l coef H; cbn [seq fold_left].
  - destruct H as [H|(j & x & Hj & _)]; [exact H|lia].
  - assert (EC : @nmul XR (Fin coef) (@ndiv XR (@nsub XR (Fin r) (nn i)) (nn (S i))) = Fin (coef * ((r - INR i) / INR (S i)))).
    { rewrite !nn_INR. change (@nsub XR (Fin r) (Fin (INR i))) with (Fin (r - INR i)). change (@ndiv XR) with xdiv. rewrite xdiv_fin by (apply not_0_INR; lia). reflexivity. }
    rewrite EC. apply IH. destruct H as [H|(j & x & Hj & Ex & Bx)].
    + left. apply (add_bad l). now left.
    + destruct (Nat.eq_dec j i) as [->|Hn].
      * left. apply (add_bad l). right. apply mul_bad. change (@nZ XR 0) with (Fin 0). rewrite (nth_error_nth d i (Fin 0) Ex). exact Bx.
      * right. exists j, x. split; [lia|auto].
Qed.
Lemma tab_bad n row j z : (1 <= j < n)%nat -> firstBad row j -> (0 <= z)%Z -> tabMom n row z = 0.
Proof.
  intros Hj ((x & Ex & Bx) & _) Hz. unfold tabMom, momMr.
  assert (EG : @nleb XR (@nZ XR 0) (Fin (IZR z / 6)) = true). { change (@nleb XR (@nZ XR 0)) with (xleb (Fin 0)). apply xleb_true. apply IZR_le in Hz. lra. }
  rewrite EG. assert (HJ : (1 <= j < 1 + (n - 1))%nat) by lia. pose proof (newton_bad row (IZR z / 6) (n - 1) 1 (nth 0 row (@nZ XR 0)) (IZR z / 6) (or_intror (ex_intro _ j (ex_intro _ x (conj HJ (conj Ex Bx)))))) as NB.
  destruct (fold_left _ _ _) as (l, c). cbn [fst] in NB. change (@npow XR (@nZ XR 10) l) with (xpow (Fin 10) l). change (@nfin XR) with xfin. change (@nZ XR 0) with (Fin 0).
  destruct l as [v| | |]; [discriminate| | |]; unfold xpow; rewrite ?Rabs_right by lra; destruct (Req_EM_T 10 1); try lra; try (destruct (Rlt_dec 10 1); [lra|]); reflexivity.
Qed.
Lemma first_zero M : 0 < el M 0 -> (forall x, In x M -> 0 <= x) -> In 0 M -> exists j, (1 <= j < length M)%nat /\ el M j = 0 /\ forall i, (i < j)%nat -> 0 < el M i.
Proof.
  intros P0 HN HI. assert (G : forall q, (q <= length M)%nat -> (forall i, (i < q)%nat -> 0 < el M i) \/ exists j, (j < q)%nat /\ el M j = 0 /\ forall i, (i < j)%nat -> 0 < el M i).
  { induction q as [|q IH]; intros Hq; [left; intros; lia|]. destruct (IH ltac:(lia)) as [A|(j & A & B & C)]; [|right; exists j; split; [lia|auto]].
    assert (0 <= el M q) as K by (apply HN; unfold el; apply nth_In; lia). destruct (Rle_lt_or_eq_dec _ _ K) as [K1|K1].
    - left. intros i Hi. destruct (Nat.eq_dec i q) as [->|]; [auto|apply A; lia].
    - right. exists q. split; [lia|]. split; [now symmetry|exact A]. }
  destruct (G (length M) (le_n _)) as [A|(j & A & B & C)].
  - exfalso. destruct (In_nth M 0 0 HI) as (i & Hi & E). specialize (A i Hi). unfold el in A. rewrite E in A. lra.
  - exists j. split; [|auto]. destruct j; [rewrite B in P0; lra|lia].
Qed.
Lemma logRow_bad M j : (j < length M)%nat -> el M j = 0 -> (forall i, (i < j)%nat -> 0 < el M i) -> firstBad (logRow M) j.
Proof.
  intros Hj E0 HP. apply row_bad; [exact Hj|]. split.
  - exists (xlog10 (Fin (el M j))). split; [now rewrite nth_error_seqmap|]. rewrite E0. unfold xlog10, xlog. destruct (Rlt_dec 0 0); [lra|]. destruct (Req_EM_T 0 0); [reflexivity|lra].
  - intros i x Hi Ex. rewrite nth_error_seqmap in Ex by lia. injection Ex as <-. specialize (HP i Hi). unfold xlog10, xlog. destruct (Rlt_dec 0 (el M i)); [reflexivity|lra].
Qed.

(** ** the rates *)
Lemma half_any y (v : nat -> res xr) : (forall l, (l < 4)%nat -> (y <= 2)%Z \/ (l < 3)%nat /\ (y <= 3)%Z \/ (l < 2)%nat -> exists x, v l = Ok x) -> exists x, half (N:=XR) y v = Ok x.
Proof.
  intros H. unfold half. destruct (H 0%nat ltac:(lia) ltac:(lia)) as (x0 & E0). destruct (H 1%nat ltac:(lia) ltac:(lia)) as (x1 & E1). rewrite E0, E1. cbn [bind].
  destruct (Z.leb_spec y 2); [|destruct (Z.leb_spec y 3)].
  - destruct (H 2%nat ltac:(lia) ltac:(lia)) as (x2 & E2). destruct (H 3%nat ltac:(lia) ltac:(lia)) as (x3 & E3). rewrite E2, E3. cbn [bind]. eauto.
  - destruct (H 2%nat ltac:(lia) ltac:(lia)) as (x2 & E2). rewrite E2. cbn [bind]. eauto.
  - eauto.
Qed.
Section Rates.
Context (n : nat) (p6 q6 : list (@num XR)) (F : Z -> R) (Hn : (3 <= n <= 7)%nat).
Context (HQ : forall i, (0 <= i < Z.of_nat (cntQ n))%Z -> vgetZ q6 i = Ok (Fin (F (2 * i - 3)%Z))).
Lemma grid_any x y : (x < n)%nat -> (y < n)%nat -> (y = 0 -> x = 0)%nat -> (x + y < n)%nat -> exists v, f_grid (N:=XR) q6 (Z.of_nat x) (Z.of_nat y) = Ok v.
Proof.
  intros Hx Hy Hxy Hs. unfold f_grid. apply half_any. intros l Hl HC.
  assert (Hb : (Z.of_nat (3 * Nat.max x y) + 3 * Z.of_nat l + 2 < Z.of_nat (cntQ n))%Z) by (unfold cntQ; lia).
  destruct (Z.eqb_spec (Z.of_nat x) (Z.of_nat y)) as [E|E].
  - assert (x = y) by lia. subst y. eexists. apply (fdiag_val q6 _ F HQ); lia.
  - eexists. apply (fterms_val q6 _ F HQ); lia.
Qed.
Lemma fm_any K r : (r < n)%nat -> r <> 1%nat -> exists v, momCoagFM (N:=XR) (Fin K) q6 r = Ok v.
Proof.
  intros Hr N1. unfold momCoagFM. destruct r as [|[|r]]; [|lia|].
  - change 0%Z with (Z.of_nat 0). destruct (grid_any 0 0) as (v & E); try lia. rewrite E. cbn [bind]. eauto.
  - set (R := S (S r)) in *. assert (G : forall c i a, (i + c <= R)%nat -> (1 <= i)%nat -> exists t, foldM (fun acc k => b <- @binomial_coefficient XR (Z.of_nat R) (Z.of_nat k);; f <- f_grid (N:=XR) q6 (Z.of_nat k) (Z.of_nat (R - k));; Ok (@nadd XR acc (@nmul XR b f))) (seq i c) a = Ok t).
    { induction c as [|c IH]; intros i a Hi H1; cbn [seq foldM]; [eauto|]. rewrite binom_val by lia. cbn [bind].
      destruct (grid_any i (R - i)) as (v & E); try lia. rewrite E. cbn [bind]. apply IH; lia. }
    destruct (G (R - 1)%nat 1%nat (@nZ XR 0)) as (t & E); try lia. rewrite E. cbn [bind]. eauto.
Qed.
Lemma pow0_pos b : 0 < b -> xpow (Fin 0) (Fin b) = Fin 0.
Proof. intros H. unfold xpow. destruct (Req_EM_T b 0); [lra|]. destruct (Rlt_dec 0 0); [lra|]. destruct (Req_EM_T 0 0); [|lra]. destruct (Rlt_dec 0 b); [reflexivity|lra]. Qed.
Lemma pow0_neg b : b < 0 -> xpow (Fin 0) (Fin b) = PInf.
Proof. intros H. unfold xpow. destruct (Req_EM_T b 0); [lra|]. destruct (Rlt_dec 0 0); [lra|]. destruct (Req_EM_T 0 0); [|lra]. destruct (Rlt_dec 0 b); [lra|reflexivity]. Qed.
Lemma zero_inf x y : xmul (xmul (xmul x (Fin 0)) PInf) y = NaN.
Proof.
  assert (A : xmul x (Fin 0) = Fin 0 \/ xmul x (Fin 0) = NaN).
  { destruct x; cbn; auto; [left; f_equal; ring| |]; unfold signed; repeat match goal with |- context [if ?c then _ else _] => destruct c; try lra end; auto. }
  destruct A as [-> | ->]; [|destruct y; reflexivity]. assert (B : xmul (Fin 0) PInf = NaN). { cbn. unfold signed. repeat match goal with |- context [if ?c then _ else _] => destruct c; try lra end; auto. }
  rewrite B. destruct y; reflexivity.
Qed.
Lemma fm_bad K : (forall z, (0 <= z)%Z -> F z = 0) -> momCoagFM (N:=XR) (Fin K) q6 0 = Ok NaN.
Proof.
  intros F0. unfold momCoagFM. assert (E : f_grid (N:=XR) q6 0 0 = Ok NaN).
  { change 0%Z with (Z.of_nat 0). unfold f_grid. rewrite Z.eqb_refl. unfold half.
    rewrite !(fdiag_val q6 _ F HQ) by (unfold cntQ; lia). cbn [bind]. change (Z.of_nat 0 <=? 2)%Z with true. cbn iota.
    rewrite grid1, grid2. change (6 * Z.of_nat 0)%Z with 0%Z. cbn [Z.add].
    rewrite (F0 7%Z), (F0 5%Z), (F0 3%Z), (F0 1%Z), (F0 13%Z), (F0 11%Z), (F0 9%Z) by lia.
    set (f0 := gridInt F F 0 0 0). set (f3 := gridInt F F 0 0 3).
    match goal with |- context [@npow XR (Fin ?e) (qfrac 15 16)] => replace e with 0 by ring end.
    match goal with |- context [@npow XR (Fin ?e) (qfrac (-5) 16)] => replace e with 0 by ring end.
    assert (Q : forall a b, b <> 0%Z -> qfrac (N:=XR) a b = Fin (IZR a / IZR b)).
    { intros a b Hb. unfold qfrac. change (@ndiv XR) with xdiv. change (@nZ XR a) with (Fin (IZR a)). change (@nZ XR b) with (Fin (IZR b)). apply xdiv_fin. now apply not_0_IZR. }
    rewrite !Q by discriminate. change (@npow XR) with xpow. rewrite (pow0_pos (15 / 16)) by lra. rewrite (pow0_neg (-5 / 16)) by lra. f_equal. apply zero_inf. }
  rewrite E. cbn [bind]. f_equal.
Qed.
Context (s : state (N:=XR)) (g : gas) (k : mechs) (soot : list R).
Context (V : valid s g soot) (HP : forall i, (i < cntP n)%nat -> vget p6 i = Ok (Fin (F (2 * Z.of_nat i - 4)%Z))).
Lemma coag_cont M0 : mC k = C_CONTINUUM -> 0 < M0 -> exists coa, momCoagRates (N:=XR) (with_f (mC k) (mF k)) s n p6 q6 (Fin M0) = Ok (map Fin coa) /\ length coa = n.
Proof.
  intros E P0. exists (map (fun r => if Nat.eqb r 1 then 0 else momCo g F r) (seq 0 n)). split; [|now rewrite map_length, seq_length].
  unfold momCoagRates. change (@nleb XR (Fin M0) (nZ 0)) with (xleb (Fin M0) (Fin 0)). rewrite (xleb_false M0) by auto.
  rewrite (kc_val s g soot V), (kslip_val s g soot V). rewrite E. cbn [co_mech with_f set_FM_multiplier newCoag].
  assert (AC : mapM (fun r => if Nat.eqb r 1 then Ok (@nZ XR 0) else momCoagC (N:=XR) (Fin (kC g)) (Fin (kSlip g)) p6 r) (seq 0 n) = Ok (map (fun r => Fin (if Nat.eqb r 1 then 0 else momCo g F r)) (seq 0 n))).
  { apply mapM_ok. intros r Hr. apply in_seq in Hr. destruct (Nat.eqb_spec r 1) as [->|N1]; [reflexivity|]. apply (co_val s g soot n p6 F V Hn HP); lia. }
  rewrite AC. cbn [bind]. f_equal. rewrite map_map. apply map_ext_in. intros r Hr. apply in_seq in Hr. change (@nZ XR 0) with (Fin 0).
  pose proof (nth_table (fun r => Fin (if Nat.eqb r 1 then 0 else momCo g F r)) n r (Fin 0) ltac:(lia)) as NC.
  destruct (Nat.eqb r 1) eqn:E1; [reflexivity|]. exact (eq_trans NC ltac:(now rewrite E1)).
Qed.
Lemma coag_none M0 : M0 = 0 -> momCoagRates (N:=XR) (with_f (mC k) (mF k)) s n p6 q6 (Fin M0) = Ok (map Fin (repeat 0 n)).
Proof.
  intros ->. unfold momCoagRates. change (@nleb XR (Fin 0) (nZ 0)) with (xleb (Fin 0) (Fin 0)). rewrite xleb_true by lra. f_equal. unfold zeros. change (@nZ XR 0) with (Fin 0).
  clear. induction n; [reflexivity|]. cbn [repeat map]. now f_equal.
Qed.
Lemma coag_bad M0 : mC k = C_FM \/ mC k = C_HM -> 0 < M0 -> (forall z, (0 <= z)%Z -> F z = 0) ->
  exists coa, momCoagRates (N:=XR) (with_f (mC k) (mF k)) s n p6 q6 (Fin M0) = Ok coa /\ nth 0 coa (Fin 0) = NaN.
Proof.
  intros HC P0 F0. unfold momCoagRates. change (@nleb XR (Fin M0) (nZ 0)) with (xleb (Fin M0) (Fin 0)). rewrite (xleb_false M0) by auto.
  rewrite (kfm_val s g soot V _ (mF k)) by (destruct (mC k); reflexivity). rewrite (kc_val s g soot V), (kslip_val s g soot V).
  set (vf := fun r => match momCoagFM (N:=XR) (Fin (kFM (mF k) g)) q6 r with Ok v => v | _ => NaN end).
  assert (AF : mapM (fun r => if Nat.eqb r 1 then Ok (@nZ XR 0) else momCoagFM (N:=XR) (Fin (kFM (mF k) g)) q6 r) (seq 0 n) = Ok (map (fun r => if Nat.eqb r 1 then Fin 0 else vf r) (seq 0 n))).
  { apply mapM_ok. intros r Hr. apply in_seq in Hr. destruct (Nat.eqb_spec r 1) as [->|N1]; [reflexivity|]. unfold vf. destruct (fm_any (kFM (mF k) g) r) as (v & E); [lia|auto|]. rewrite E. reflexivity. }
  assert (AC : mapM (fun r => if Nat.eqb r 1 then Ok (@nZ XR 0) else momCoagC (N:=XR) (Fin (kC g)) (Fin (kSlip g)) p6 r) (seq 0 n) = Ok (map (fun r => Fin (momCo g F r)) (seq 0 n))).
  { apply mapM_ok. intros r Hr. apply in_seq in Hr. destruct (Nat.eqb_spec r 1) as [->|N1]; [reflexivity|]. apply (co_val s g soot n p6 F V Hn HP); lia. }
  assert (E0 : vf 0%nat = NaN) by (unfold vf; now rewrite fm_bad).
  destruct n as [|n']; [lia|].
  destruct HC as [E|E]; rewrite E; cbn [co_mech with_f set_FM_multiplier newCoag]; rewrite ?AF, ?AC; cbn [bind]; eexists; (split; [reflexivity|]); cbn [seq map nth Nat.eqb]; rewrite E0; reflexivity.
Qed.
End Rates.
