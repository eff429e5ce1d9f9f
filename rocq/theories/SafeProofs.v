(** Memory safety of calls and histories of calls, for every number type. *)
From Coq Require Import ZArith List Bool Lia.
From Verif Require Import Num Defs State Binomial Coag Nucl Growth Oxid Tar SootModel Mono Logn Qmom Momic Sect Hmom Calls SpecState SpecSafe StateProofs BinomialProofs.
Import ListNotations.
Local Open Scope nat_scope.

(** no undefined behaviour; [t]: an exception is possible, [b]: so is an unrepresentable conversion *)
Definition wp (t b : bool) {A} (r : res A) (Q : A -> Prop) : Prop :=
  match r with Ok a => Q a | Throw _ => t = true | UB BadCast => b = true | UB _ => False end.

Section Rules.
Context {t b : bool}.
Lemma wp_bind {A B} (r : res A) (f : A -> res B) Q : wp t b r (fun a => wp t b (f a) Q) -> wp t b (bind r f) Q.
Proof. destruct r; auto. Qed.
Lemma wp_ok {A} (a : A) (Q : A -> Prop) : Q a -> wp t b (Ok a) Q. Proof. auto. Qed.
Lemma wp_mono {A} (r : res A) (P Q : A -> Prop) : wp t b r P -> (forall a, P a -> Q a) -> wp t b r Q.
Proof. destruct r as [|?|u]; cbn; auto; destruct u; auto. Qed.
Lemma wp_seq {A B} (r : res A) (f : A -> res B) P Q : wp t b r P -> (forall a, P a -> wp t b (f a) Q) -> wp t b (bind r f) Q.
Proof. intros H K. apply wp_bind. eapply wp_mono; eauto. Qed.
Lemma wp_vget {A} (v : list A) i : i < length v -> wp t b (vget v i) (fun _ => True).
Proof. intros H. destruct (vget_ok v i H) as (x & -> & _). exact I. Qed.
Lemma wp_vgetZ {A} (v : list A) i : (0 <= i < Z.of_nat (length v))%Z -> wp t b (vgetZ v i) (fun _ => True).
Proof. intros H. unfold vgetZ. destruct (Z.ltb_spec i 0); [lia|]. apply wp_vget. lia. Qed.
Lemma wp_vset {A} (v : list A) i x : i < length v -> wp t b (vset v i x) (fun w => length w = length v).
Proof. intros H. unfold vset. destruct (Nat.ltb_spec i (length v)); [|lia]. cbn. apply upd_length. Qed.
Lemma wp_foldM {A S} (f : S -> A -> res S) (I : S -> Prop) l : (forall s a, In a l -> I s -> wp t b (f s a) I) -> forall s, I s -> wp t b (foldM f l s) I.
Proof.
  induction l as [|a l IH]; intros H s Hs; [exact Hs|]. cbn [foldM]. apply wp_bind. eapply wp_mono; [apply H; auto; now left|].
  intros s' Hs'. apply IH; auto. intros; apply H; auto; now right.
Qed.
Lemma wp_mapM {A B} (f : A -> res B) l : (forall a, In a l -> wp t b (f a) (fun _ => True)) -> wp t b (mapM f l) (fun r => length r = length l).
Proof.
  induction l as [|a l IH]; intros H; [reflexivity|]. cbn [mapM]. eapply wp_seq; [apply H; now left|]. intros x _.
  eapply wp_seq; [apply IH; intros; apply H; now right|]. intros l' E. cbn. now rewrite E.
Qed.
End Rules.
Arguments wp : simpl never.

Ltac get := eapply wp_seq; [apply wp_vget; lia|intros ? _].
Ltac getZ := eapply wp_seq; [apply wp_vgetZ; lia|intros ? _].
Ltac fin_ := apply wp_ok; auto.

Section Safe.
Context {N : Num} {t b : bool}.
Notation wp := (wp t b).
Notation any := (fun _ => True).

Lemma zeros_len n : length (zeros (N:=N) n) = n. Proof. apply repeat_length. Qed.

(** *** Interpolative closure *)
Lemma diffs_len (l : list num) : length (diffs l) = length l - 1.
Proof.
  induction l as [|x l IH]; [reflexivity|]. destruct l as [|y l]; [reflexivity|].
  change (diffs (x :: y :: l)) with (nsub y x :: diffs (y :: l)). cbn [length] in *. rewrite IH. lia.
Qed.
Lemma set_diffTable_safe n (M : list num) : n <= length M -> wp (set_diffTable n M) any.
Proof.
  intros H. unfold set_diffTable. eapply wp_seq; [apply wp_mapM; intros k Hk; apply in_seq in Hk; get; fin_|]. intros; fin_.
Qed.
Lemma fill_safe n d z cnt (old : list num) : cnt <= length old -> wp (fillFrac n d z cnt old) (fun v => length v = length old).
Proof.
  intros H. unfold fillFrac. destruct (Nat.ltb_spec (length old) cnt); [lia|]. apply wp_ok.
  rewrite app_length, map_length, seq_length, skipn_length. lia.
Qed.
Definition sizedInterp (n : nat) (d : interpData) : Prop := id_Nmom d = n /\ length (id_Mp6 d) = 22 /\ length (id_Mq6 d) = 30.
Lemma setMoments_safe n d (M : list num) : 3 <= n <= 7 -> n <= length M -> sizedInterp n d ->
  wp (setMoments npMOMIC nqMOMIC d M) (fun d' => sizedInterp n d' /\ id_mass d' = id_mass d).
Proof.
  intros H L (E & LP & LQ). unfold setMoments. rewrite E. eapply wp_seq; [now apply set_diffTable_safe|]. intros row _.
  assert (EP : vget npMOMIC n = Ok (3 * n + 1)) by (do 8 (destruct n as [|n]; [try lia; reflexivity|]); lia).
  assert (EQ : vget nqMOMIC n = Ok (3 * n + 9)) by (do 8 (destruct n as [|n]; [try lia; reflexivity|]); lia).
  rewrite EP. cbn [bind]. eapply wp_seq; [apply fill_safe; lia|]. intros p6 E1. rewrite EQ. cbn [bind].
  eapply wp_seq; [apply fill_safe; lia|]. intros q6 E2. apply wp_ok. unfold sizedInterp. cbn. rewrite E1, E2. auto.
Qed.

Lemma fold_safe (l : list (res num)) (r : res num) : wp r any -> (forall x, In x l -> wp x any) -> wp (fold_left radd l r) any.
Proof.
  revert r. induction l as [|x l IH]; intros r Hr H; [exact Hr|]. cbn [fold_left]. apply IH; [|intros; apply H; now right].
  unfold radd, lift2. eapply wp_seq; [exact Hr|]. intros a _. eapply wp_seq; [apply H; now left|]. intros; fin_.
Qed.
Lemma sumR_safe (l : list (res num)) : (forall x, In x l -> wp x any) -> wp (sumR l) any.
Proof. destruct l as [|x l]; intros H; [fin_|]. cbn [sumR]. apply fold_safe; [apply H; now left|intros; apply H; now right]. Qed.
Lemma qterms_safe (q : list num) x y l : (forall c u v, In (c, u, v) l -> (0 <= x + u < Z.of_nat (length q) /\ 0 <= y + v < Z.of_nat (length q))%Z) -> wp (qterms q x y l) any.
Proof.
  intros H. unfold qterms. apply sumR_safe. intros r Hr. apply in_map_iff in Hr. destruct Hr as (((c & u) & v) & <- & Hi). destruct (H _ _ _ Hi). getZ. getZ. fin_.
Qed.
Lemma half_safe y (v : nat -> res num) : wp (v 0) any -> wp (v 1) any -> ((y <= 3)%Z -> wp (v 2) any) -> ((y <= 2)%Z -> wp (v 3) any) -> wp (half y v) any.
Proof.
  intros H0 H1 H2 H3. unfold half. eapply wp_seq; [exact H0|]. intros ? _. eapply wp_seq; [exact H1|]. intros ? _.
  destruct (Z.leb_spec y 2).
  - eapply wp_seq; [apply H2; lia|]. intros ? _. eapply wp_seq; [apply H3; lia|]. intros ? _. fin_.
  - destruct (Z.leb_spec y 3); [|fin_]. eapply wp_seq; [apply H2; lia|]. intros ? _. fin_.
Qed.
Ltac terms := intros ? ? ? HI; cbn [nth In f0terms f1terms f2terms f3terms f0diag f1diag f2diag f3diag] in HI;
  repeat match goal with H : _ \/ _ |- _ => destruct H as [H|H]; [injection H as <- <- <-; lia|] | H : False |- _ => destruct H end.
Lemma f_grid_safe (q : list num) x y : length q = 30 -> (0 <= x <= 6)%Z -> (0 <= y <= 6)%Z -> wp (f_grid q x y) any.
Proof.
  intros L X Y. unfold f_grid. apply half_safe; try intros _;
  (destruct (x =? y)%Z; [eapply wp_seq; [apply qterms_safe; rewrite L; terms|intros; fin_]|apply qterms_safe; rewrite L; terms]).
Qed.
Lemma gterms_safe m (q : list num) y l : (forall c u v, In (c, u, v) l -> (0 <= y + v < Z.of_nat (length q))%Z) -> wp (gterms m q y l) any.
Proof.
  intros H. unfold gterms. apply sumR_safe. intros r Hr. apply in_map_iff in Hr. destruct Hr as (((c & u) & v) & <- & Hi). specialize (H _ _ _ Hi). getZ. fin_.
Qed.
Ltac gterms_ := intros ? ? ? HI; cbn [nth In g0terms g1terms g2terms g3terms] in HI;
  repeat match goal with H : _ \/ _ |- _ => destruct H as [H|H]; [injection H as <- <- <-; lia|] | H : False |- _ => destruct H end.
Lemma g_grid_safe m (q : list num) y : length q = 30 -> (1 <= y <= 7)%Z -> wp (g_grid m q y) any.
Proof. intros L Y. unfold g_grid. apply half_safe; try intros _; apply gterms_safe; rewrite L; gterms_. Qed.
Lemma bracket_safe m c (p : list num) : length p = 22 -> wp (contBracket m c p 0) any.
Proof. intros L. unfold contBracket. do 4 get. fin_. Qed.

Lemma factorials_len : length (@factorials N) = 35. Proof. reflexivity. Qed.
Lemma binom_safe r k : k <= r <= 34 -> wp (binomial_coefficient (Z.of_nat r) (Z.of_nat k)) any.
Proof.
  intros H. rewrite (binom_ok r k (fun i => nth i factorials (nZ 0))); auto.
  - fin_.
  - intros i Hi. apply nth_error_nth'. exact Hi.
Qed.
Lemma binom_any r k : (34 < r -> t = true) -> k <= r -> wp (binomial_coefficient (Z.of_nat r) (Z.of_nat k)) any.
Proof.
  intros E H. destruct (Nat.le_gt_cases r 34); [apply binom_safe; lia|]. unfold binomial_coefficient.
  destruct (Z.geb_spec (Z.of_nat r) 35); [|lia]. cbn [orb]. exact (E ltac:(lia)).
Qed.
Lemma coagFM_safe K (q : list num) r : length q = 30 -> r <= 6 -> wp (momCoagFM K q r) any.
Proof.
  intros L R. unfold momCoagFM. destruct r as [|r].
  - eapply wp_seq; [apply f_grid_safe; auto; lia|]. intros; fin_.
  - eapply wp_seq; [apply (wp_foldM _ any)|intros; fin_]; auto. intros s k Hk _. apply in_seq in Hk.
    eapply wp_seq; [apply binom_safe; lia|]. intros ? _. eapply wp_seq; [apply f_grid_safe; auto; lia|]. intros; fin_.
Qed.
Lemma coagC_safe K c (p : list num) r : length p = 22 -> r <= 6 -> wp (momCoagC K c p r) any.
Proof.
  intros L R. unfold momCoagC. destruct r as [|r].
  - do 4 get. fin_.
  - eapply wp_seq; [apply (wp_foldM _ any)|intros; fin_]; auto. intros s k Hk _. apply in_seq in Hk.
    unfold contTerm. eapply wp_seq; [apply binom_safe; lia|]. intros ? _. do 8 get. fin_.
Qed.
Lemma coagRates_safe c s n (p q : list num) M0 : length p = 22 -> length q = 30 -> 2 <= n <= 7 ->
  wp (momCoagRates c s n p q M0) (fun v => length v = n /\ nth 1 v (nZ 0) = nZ 0).
Proof.
  intros LP LQ Hn. unfold momCoagRates. destruct (nleb M0 (nZ 0)).
  { apply wp_ok. split; [apply zeros_len|]. unfold zeros. do 3 (destruct n as [|n]; [lia || reflexivity|]). reflexivity. }
  eapply wp_seq.
  { destruct (match co_mech c with C_FM | C_HM => true | _ => false end); [|apply (wp_ok _ any); auto].
    eapply wp_mono; [apply wp_mapM|auto]. intros r Hr. apply in_seq in Hr. destruct (Nat.eqb r 1); [fin_|]. apply coagFM_safe; auto; lia. }
  intros fm _. eapply wp_seq.
  { destruct (match co_mech c with C_CONTINUUM | C_HM => true | _ => false end); [|apply (wp_ok _ any); auto].
    eapply wp_mono; [apply wp_mapM|auto]. intros r Hr. apply in_seq in Hr. destruct (Nat.eqb r 1); [fin_|]. apply coagC_safe; auto; lia. }
  intros cc _. apply wp_ok. rewrite map_length, seq_length. split; auto.
  destruct n as [|[|n]]; [lia|lia|]. reflexivity.
Qed.

(** *** Mechanisms *)
Context (G n nt : nat).
Section Mech.
Context (s : state) (SS : fitState G n nt s).
Let Ly : G <= length (yGas s) := proj1 SS.
Let Lp : length (yPah s) = 6 := proj1 (proj2 SS).
Let Ln : st_nsoot s = Z.of_nat n := proj1 (proj2 (proj2 SS)).
Let Ls : length (sootVar s) = n := proj1 (proj2 (proj2 (proj2 SS))).
Let Lw : length (wts s) = Nat.div n 2 := proj1 (proj2 (proj2 (proj2 (proj2 SS)))).
Let La : length (absc s) = Nat.div n 2 := proj1 (proj2 (proj2 (proj2 (proj2 (proj2 SS))))).
Let Lt : length (tarVar s) = nt := proj2 (proj2 (proj2 (proj2 (proj2 (proj2 (proj2 SS)))))).

Lemma gasC_safe sp : gasIdx sp < G -> wp (getGasSpC s sp) any.
Proof. intros H. unfold getGasSpC. get. fin_. Qed.
Lemma gasP_safe sp : gasIdx sp < G -> wp (getGasSpP s sp) any.
Proof. intros H. unfold getGasSpP. get. fin_. Qed.
Ltac readable := match goal with R : forall sp, _ = true -> gasIdx sp < G |- _ => apply R; reflexivity end.
Ltac gas_ := eapply wp_seq; [apply gasC_safe; readable|intros ? _].
Ltac gasp_ := eapply wp_seq; [apply gasP_safe; readable|intros ? _].

(** a model of which the mechanisms see the right sizes *)
Definition sizedView (v : smView) : Prop := 2 <= n /\ sv_nsoot v = n /\ (sv_psd v = P_SECT -> length (sv_mBins v) = n).
Lemma getM01_safe v : sizedView v -> wp (getM01 v s) any.
Proof.
  intros (H2 & Hn & Hm). unfold getM01, get_M0_sectional, get_M1_sectional. rewrite Hn.
  destruct (sv_psd v); try (get; get; fin_). specialize (Hm eq_refl).
  eapply wp_seq; [apply (wp_foldM _ any); auto; intros; match goal with H : In _ _ |- _ => apply in_seq in H end; get; fin_|]. intros ? _.
  eapply wp_seq; [apply (wp_foldM _ any); auto; intros; match goal with H : In _ _ |- _ => apply in_seq in H end; get; get; fin_|]. intros; fin_.
Qed.
Lemma hacaM01_safe v : sizedView v -> wp (hacaM01 v s) any.
Proof.
  intros (H2 & Hn & Hm). unfold hacaM01. get. get. destruct (sv_psd v); try fin_. specialize (Hm eq_refl).
  destruct (Z.ltb_spec (st_nsoot s) 0); [lia|]. apply (wp_foldM _ any); auto. intros ? ? HI _. apply in_seq in HI. rewrite Ln, Nat2Z.id in HI. get. get. fin_.
Qed.
Lemma sites_safe : (forall sp, hacaReads sp = true -> gasIdx sp < G) -> wp (hacaSites s) any.
Proof. intros R. unfold hacaSites. do 6 gas_. fin_. Qed.
Lemma grow_safe g v : (forall sp, growReads (gr_class g) sp = true -> gasIdx sp < G) -> sizedView v -> wp (growRate g v s) any.
Proof.
  intros R H. unfold growRate. destruct (gr_class g); try fin_.
  - unfold growLL. eapply wp_seq; [now apply getM01_safe|]. intros (M0 & M1) _. destruct (ngtb _ _); [gas_; fin_|fin_].
  - unfold growLIN. gas_. fin_.
  - unfold growHACA. eapply wp_seq; [now apply hacaM01_safe|]. intros (M0 & M1) _. eapply wp_seq; [apply sites_safe; exact R|]. intros ((? & ?) & ?) _. fin_.
  - unfold growMB. eapply wp_seq; [now apply getM01_safe|]. intros (M0 & M1) _. destruct (ngtb _ _); [gas_; fin_|fin_].
  - unfold growFAIR. eapply wp_seq; [now apply getM01_safe|]. intros (M0 & M1) _. destruct (ngtb _ _); [gas_; fin_|fin_].
Qed.
Lemma neoh_safe e : gasIdx OH < G -> wp (neohOH e s) any. Proof. intros R. unfold neohOH. eapply wp_seq; [now apply gasC_safe|intros ? _]. fin_. Qed.
Ltac neoh_ := eapply wp_seq; [apply neoh_safe; readable|intros ? _].
Lemma oxid_safe o v : (forall sp, oxidReads (ox_class o) sp = true -> gasIdx sp < G) -> sizedView v -> wp (oxidRate o v s) any.
Proof.
  intros R H. unfold oxidRate. destruct (ox_class o); try fin_.
  - unfold oxidLL. gas_. fin_.
  - unfold oxidLEE_NEOH. gasp_. neoh_. fin_.
  - unfold oxidMB. eapply wp_seq; [now apply getM01_safe|]. intros ? _. gas_. fin_.
  - unfold oxidFAIR. gas_. fin_.
  - unfold oxidNSC_NEOH. gasp_. gasp_. fin_.
  - unfold oxidHACA. eapply wp_seq; [now apply getM01_safe|]. intros (M0 & M1) _. eapply wp_seq; [apply sites_safe; exact R|]. intros ((? & ?) & ?) _. neoh_. fin_.
  - unfold oxidAJ_RED. gasp_. gasp_. fin_.
  - unfold oxidBROWN. gasp_. fin_.
  - unfold oxidOPTJ. gasp_. neoh_. fin_.
  - unfold oxidOPTG. gasp_. neoh_. fin_.
Qed.
Lemma crack_safe ta : (forall sp, tarReads (ta_class ta) sp = true -> gasIdx sp < G) -> 1 <= nt -> wp (crackRate ta s) any.
Proof.
  intros R H. unfold crackRate. destruct (ta_class ta); try fin_.
  - unfold crackAJ_RED. get. gas_. fin_.
  - unfold crackBROWN. gas_. get. fin_.
Qed.
Lemma depo_safe ta : 1 <= nt -> 2 <= n -> wp (depoRate ta s) any.
Proof. intros H H2. unfold depoRate. destruct (ta_class ta); try fin_. unfold depoAJ_RED. do 3 get. fin_. Qed.
Lemma surf_safe ta : (forall sp, tarReads (ta_class ta) sp = true -> gasIdx sp < G) -> 1 <= nt -> wp (surfRate ta s) any.
Proof.
  intros R H. unfold surfRate. destruct (ta_class ta); try fin_.
  - unfold surfAJ_RED. do 2 gasp_. fin_.
  - unfold surfBROWN. get. fin_.
Qed.
Lemma collSum_safe co mD : wp (collSum co s mD) any.
Proof.
  unfold collSum. eapply wp_seq; [apply (wp_foldM _ any); auto|intros; fin_]. intros ? i HI _. apply in_seq in HI. get. get. fin_.
Qed.
Lemma pahLoop_safe : wp (pahLoop s) (fun a => length (a_rates a) = 6).
Proof.
  unfold pahLoop. unfold allPah. cbn [foldM].
  assert (ST : forall a sp k, length (a_rates a) = k -> wp (pahStep s a sp) (fun a' => length (a_rates a') = S k)).
  { intros a sp k E. unfold pahStep, pahNdot. assert (pahIdx sp < 6) by (destruct sp; cbn; lia).
    eapply wp_seq; [get; apply (wp_ok _ any); auto|]. intros nd _. apply wp_ok. cbn [a_rates]. rewrite app_length. cbn [length]. lia. }
  eapply wp_seq; [apply (ST _ _ 0); reflexivity|]. intros a1 E1. eapply wp_seq; [apply (ST _ _ 1); exact E1|]. intros a2 E2.
  eapply wp_seq; [apply (ST _ _ 2); exact E2|]. intros a3 E3. eapply wp_seq; [apply (ST _ _ 3); exact E3|]. intros a4 E4.
  eapply wp_seq; [apply (ST _ _ 4); exact E4|]. intros a5 E5. eapply wp_seq; [apply (ST _ _ 5); exact E5|]. intros a6 E6. apply wp_ok. exact E6.
Qed.
End Mech.

Lemma sized_cMin s c : fitState G n nt s -> fitState G n nt (with_cMin s c). Proof. intros H. exact H. Qed.
Lemma sized_wa s w a : fitState G n nt s -> length w = Nat.div n 2 -> length a = Nat.div n 2 -> fitState G n nt (with_wa s w a).
Proof. intros (A & B & C & D & _ & _ & E & F) ? ?. unfold fitState. cbn. auto 10. Qed.

(** what nucleation leaves behind: [nu], [s] or, for PAH, a new object, new cMin and the stored collision data *)
Definition nuclOut (nu : nuclObj) (s : state) (E : list num -> Prop) (r : num * nuclObj * state * option (list num)) : Prop :=
  let '(_, nu', s', eff) := r in
  (nu_class nu <> N_PAH /\ nu' = nu /\ s' = s /\ eff = None) \/
  (nu_class nu = N_PAH /\ nu_class nu' = N_PAH /\ nu_mech nu' = nu_mech nu /\ length (nu_pah nu') = 6 /\
   (exists c, s' = with_cMin s c) /\ exists e, eff = Some e /\ E e).
Lemma nucl_safe coll nu s (E : list num -> Prop) : (forall sp, nuclReads (nu_class nu) sp = true -> gasIdx sp < G) -> fitState G n nt s -> (nu_class nu = N_AJ_RED \/ nu_class nu = N_BROWN -> 1 <= nt) ->
  (nu_class nu = N_PAH -> forall c mD, wp (coll (with_cMin s c) mD) (fun p => E (snd p))) ->
  wp (nuclRate coll nu s) (nuclOut nu s E).
Proof.
  intros R SS HT HC. pose proof SS as (Ly & Lp & Ln & Ls & Lw & La & _ & Lt). unfold nuclRate.
  assert (PURE : forall r : res num, nu_class nu <> N_PAH -> wp r any -> wp (x <- r ;; Ok (x, nu, s, None)) (nuclOut nu s E)).
  { intros r H K. eapply wp_seq; [exact K|]. intros a _. apply wp_ok. left. auto. }
  destruct (nu_class nu) eqn:EC; try (apply wp_ok; left; rewrite EC; repeat split; auto; discriminate).
  - apply PURE; [try rewrite EC; discriminate|]. unfold nuclLL. eapply wp_seq; [apply gasC_safe; [exact SS|apply R; reflexivity]|intros; fin_].
  - apply PURE; [try rewrite EC; discriminate|]. unfold nuclLIN. eapply wp_seq; [apply gasC_safe; [exact SS|apply R; reflexivity]|intros; fin_].
  - apply PURE; [try rewrite EC; discriminate|]. unfold nuclLINA1. eapply wp_seq; [apply gasC_safe; [exact SS|apply R; reflexivity]|intros; fin_].
  - unfold nuclPAH. apply wp_bind. eapply wp_seq; [now apply pahLoop_safe|]. intros a LA. cbv beta zeta.
    eapply wp_seq; [now apply HC|]. intros (Ib & e) He. cbn [snd] in He. apply wp_ok. apply wp_ok. right. cbn [nu_class nu_mech nu_pah].
    split; [exact EC|]. split; [exact EC|]. split; [reflexivity|]. split; [exact LA|]. split; [eexists; reflexivity|exists e; auto].
  - apply PURE; [try rewrite EC; discriminate|]. unfold nuclMB. eapply wp_seq; [apply gasC_safe; [exact SS|apply R; reflexivity]|intros; fin_].
  - apply PURE; [try rewrite EC; discriminate|]. unfold nuclFAIR. eapply wp_seq; [apply gasC_safe; [exact SS|apply R; reflexivity]|intros; fin_].
  - apply PURE; [try rewrite EC; discriminate|]. unfold nuclAJ_RED. specialize (HT (or_introl eq_refl)). get. fin_.
  - apply PURE; [try rewrite EC; discriminate|]. unfold nuclBROWN. specialize (HT (or_intror eq_refl)). get. fin_.
Qed.

(** *** Whole calls *)
Definition sizedPriv (m : model) : Prop :=
  match sm_psd m with
  | P_MONO => n = 2 /\ (ta_mech (sm_tar m) <> T_NONE -> 1 <= nt)
  | P_LOGN => n = 3
  | P_QMOM => 2 <= n /\ Nat.even n = true
  | P_MOMIC => 3 <= n <= 7 /\ exists d, sm_priv m = PrivMomic d /\ sizedInterp n d
  | P_SECT => 2 <= n /\ length (sm_mBins m) = n /\ exists F beta, sm_priv m = PrivSect F beta /\ (nu_class (sm_nucl m) = N_PAH -> n <= length beta)
  | _ => False
  end.
Definition sizedModel (m : model) : Prop :=
  sm_nsoot m = n /\ length (nu_pah (sm_nucl m)) = 6 /\ sizedSources n nt (sm_sources m) /\
  (nu_class (sm_nucl m) = N_AJ_RED \/ nu_class (sm_nucl m) = N_BROWN -> 1 <= nt) /\
  (nu_mech (sm_nucl m) = N_PAH <-> nu_class (sm_nucl m) = N_PAH) /\ sizedPriv m /\
  enoughGas G (nu_class (sm_nucl m)) (gr_class (sm_grow m)) (ox_class (sm_oxid m)) (ta_class (sm_tar m)).

Lemma sized_two m : sizedModel m -> 2 <= n.
Proof. intros (_ & _ & _ & _ & _ & H & _). unfold sizedPriv in H. destruct (sm_psd m); try tauto; lia. Qed.
Lemma sized_view m : sizedModel m -> sizedView (viewOf m).
Proof.
  intros H. pose proof (sized_two m H) as H2. destruct H as (A & _ & _ & _ & _ & P & _). unfold sizedView, viewOf. cbn. split; auto. split; auto.
  intros E. unfold sizedPriv in P. rewrite E in P. tauto.
Qed.

Lemma sized_grow m : sizedModel m -> forall sp, growReads (gr_class (sm_grow m)) sp = true -> gasIdx sp < G.
Proof. intros (_ & _ & _ & _ & _ & _ & H) sp R. apply H. auto. Qed.
Lemma sized_oxid m : sizedModel m -> forall sp, oxidReads (ox_class (sm_oxid m)) sp = true -> gasIdx sp < G.
Proof. intros (_ & _ & _ & _ & _ & _ & H) sp R. apply H. auto. Qed.
Lemma sized_tar m : sizedModel m -> forall sp, tarReads (ta_class (sm_tar m)) sp = true -> gasIdx sp < G.
Proof. intros (_ & _ & _ & _ & _ & _ & H) sp R. apply H. auto. Qed.
(** the model and state after nucleation *)
Definition effOk (m : model) (e : list num) : Prop :=
  match sm_psd m with P_SECT => n <= length e | P_MOMIC => exists x, e = [x] | _ => True end.
Definition after (m : model) (s : state) (m' : model) (s' : state) : Prop :=
  sizedModel m' /\ fitState G n nt s' /\ (exists c, s' = with_cMin s c) /\ sm_psd m' = sm_psd m /\ sm_tar m' = sm_tar m /\ sm_coag m' = sm_coag m /\
  sm_mBins m' = sm_mBins m /\ sm_sources m' = sm_sources m /\
  (sm_psd m = P_MOMIC -> forall d, sm_priv m = PrivMomic d -> exists x, sm_priv m' = PrivMomic (mkInterp (id_Nmom d) (id_diff0 d) (id_Mp6 d) (id_Mq6 d) x) /\ (isPAH m' = true -> x <> None)).
Lemma cMin_same (s : state) : s = with_cMin s (cMin s). Proof. destruct s; reflexivity. Qed.
Lemma store_facts (m : model) nu e : let m' := storeNucl m nu e in
  sm_psd m' = sm_psd m /\ sm_nsoot m' = sm_nsoot m /\ sm_nucl m' = nu /\ sm_grow m' = sm_grow m /\ sm_oxid m' = sm_oxid m /\ sm_coag m' = sm_coag m /\
  sm_tar m' = sm_tar m /\ sm_mBins m' = sm_mBins m /\ sm_sources m' = sm_sources m.
Proof. unfold storeNucl. destruct m as [? ? ? ? ? ? ? ? ? ? ? p]; destruct p; destruct e as [[|? [|? ?]]|]; cbn; auto 10. Qed.
Lemma runNucl_safe coll m s : sizedModel m -> fitState G n nt s ->
  (nu_class (sm_nucl m) = N_PAH -> forall c mD, wp (coll (with_cMin s c) mD) (fun p => effOk m (snd p))) ->
  wp (runNucl coll m s) (fun '(_, m', s') => after m s m' s').
Proof.
  intros SM SS HC. pose proof SM as (Hn & Lp & Ls & Ht & Hm & Hp & HG). unfold runNucl.
  eapply wp_seq; [apply (nucl_safe coll (sm_nucl m) s (effOk m)); auto; intros sp Hsp; apply HG; auto|]. intros (((j & nu) & s') & eff) H. apply wp_ok.
  destruct H as [(C & -> & -> & ->)|(C & C1 & C2 & C3 & (c & ->) & e & -> & He)].
  - assert (E : storeNucl m (sm_nucl m) None = m) by (unfold storeNucl; destruct m as [? ? ? ? ? ? ? ? ? ? ? p]; destruct p; reflexivity).
    rewrite E. split; [auto|]. split; [auto|]. split; [eexists; apply cMin_same|]. do 5 (split; [reflexivity|]).
    intros _ d Ed. exists (id_mass d). split; [rewrite Ed; destruct d; reflexivity|]. intros I. exfalso. apply C, Hm. unfold isPAH in I. destruct (nu_mech (sm_nucl m)); congruence.
  - destruct (store_facts m nu (Some e)) as (F1 & F2 & F3 & F4 & F5 & F6 & F7 & F8 & F9).
    assert (PM : forall d, sm_priv m = PrivMomic d -> sm_psd m = P_MOMIC -> exists x, sm_priv (storeNucl m nu (Some e)) = PrivMomic (mkInterp (id_Nmom d) (id_diff0 d) (id_Mp6 d) (id_Mq6 d) (Some x))).
    { intros d Ed EP. unfold effOk in He. rewrite EP in He. destruct He as (x & ->). exists x. unfold storeNucl. cbn [sm_priv with_nuclObj]. rewrite Ed. reflexivity. }
    unfold after. split; [|split; [exact SS|split; [eexists; reflexivity|]]].
    + unfold sizedModel, sizedPriv in *. rewrite F1, F2, F3, F4, F5, F7, F8, F9, C1, C2. split; [exact Hn|]. split; [exact C3|]. split; [exact Ls|]. split; [intros [|]; discriminate|]. split; [tauto|]. rewrite C in HG. split; [|exact HG].
      unfold effOk in He. destruct (sm_psd m) eqn:EP; auto.
      * destruct Hp as (A & d & Ed & D). split; auto. destruct (PM d Ed eq_refl) as (x & Ex). eexists. split; [exact Ex|]. exact D.
      * destruct Hp as (A & B & F & beta & Eb & Hb). split; auto. split; auto. exists F, e. split; [|auto]. unfold storeNucl. cbn [sm_priv with_nuclObj]. rewrite Eb. reflexivity.
    + split; [exact F1|]. split; [exact F7|]. split; [exact F6|]. split; [exact F8|]. split; [exact F9|]. intros EP d Ed.
      destruct (PM d Ed EP) as (x & Ex). exists (Some x). split; [exact Ex|]. discriminate.
Qed.
Lemma chem_safe coll m s : sizedModel m -> fitState G n nt s ->
  (nu_class (sm_nucl m) = N_PAH -> forall c mD, wp (coll (with_cMin s c) mD) (fun p => effOk m (snd p))) ->
  wp (chemRates coll m s) (fun '(_, _, _, m', s') => after m s m' s').
Proof.
  intros SM SS HC. unfold chemRates. eapply wp_seq; [now apply runNucl_safe|]. intros ((j & m') & s') H. pose proof H as (SM' & SS' & _).
  eapply wp_seq; [apply grow_safe; auto using sized_view; now apply sized_grow|]. intros ? _. eapply wp_seq; [apply oxid_safe; auto using sized_view; now apply sized_oxid|]. intros ? _. apply wp_ok. exact H.
Qed.

Lemma gasSrc_len m a1 a2 a3 : length (gasSrc (N:=N) m a1 a2 a3) = 11. Proof. reflexivity. Qed.
(** a call that ends with [finish] *)
Definition kept (m : model) (r : model * state) : Prop := sizedModel (fst r) /\ fitState G n nt (snd r) /\ sm_psd (fst r) = sm_psd m /\ sm_coag (fst r) = sm_coag m.
Lemma finish_sized m l a1 a2 a3 : sizedModel m -> length l = n -> sizedModel (finish m l a1 a2 a3).
Proof.
  intros (A & B & (C1 & C2 & C3 & C4) & D & E & F) L. unfold sizedModel, finish, sizedPriv, sizedSources in *. cbn [sm_nsoot sm_nucl sm_sources sm_psd sm_tar sm_priv sm_mBins with_sources sootSources gasSources pahSources tarSources].
  split; [auto|]. split; [auto|]. split; [|auto]. split; [auto|]. split; [apply gasSrc_len|]. split; [|auto]. destruct (isPAH m); auto.
Qed.

Lemma mono_safe m s : sizedModel m -> fitState G n nt s -> sm_psd m = P_MONO -> wp (setSourceTermsMONO m s) (kept m).
Proof.
  intros SM SS EP. pose proof SS as (Ly & Lp & Ln & Ls & Lw & La & _ & Lt). pose proof SM as (_ & _ & (_ & _ & _ & LT) & _ & _ & HP & _). unfold sizedPriv in HP. rewrite EP in HP. destruct HP as (E2 & HT). assert (ED : Nat.div n 2 = 1) by (rewrite E2; reflexivity).
  unfold setSourceTermsMONO. get. get. rename a into M0, a0 into M1. 
  assert (SW : wp (monoSetWA M0 M1 s) (fitState G n nt)).
  { unfold monoSetWA. destruct (ngtb M0 (nZ 0)); [|now apply wp_ok]. eapply wp_seq; [apply wp_vset; lia|]. intros w Ew. eapply wp_seq; [apply wp_vset; lia|]. intros a Ea. apply wp_ok. apply sized_wa; auto; congruence. }
  eapply wp_seq; [exact SW|]. clear SW. intros s1 S1.
  assert (MT : wp (monoTermsOf M0 M1 m s1) (fun '(_, m', s') => after m s1 m' s')).
  { unfold monoTermsOf. eapply wp_seq; [apply chem_safe; auto|].
    { intros _ c mD. eapply wp_mono; [apply (collSum_safe (with_cMin s1 c)); exact S1|]. intros p _. unfold effOk. now rewrite EP. }
    intros ((((j & kg) & ko) & m') & s') H. pose proof H as (SM' & SS' & _). pose proof SS' as (_ & _ & _ & _ & Lw' & La' & _). get.
    eapply wp_seq; [destruct (isPAH m'); [get|]; apply (wp_ok _ any); auto|]. intros ? _.
    eapply wp_seq; [destruct (coagOn m'); [get|]; apply (wp_ok _ any); auto|]. intros ? _. apply wp_ok. exact H. }
  destruct (ta_mech (sm_tar m)) eqn:ET.
  { eapply wp_seq; [exact MT|]. intros ((t0 & m') & s') (A & B & _ & C & _ & C' & _). apply wp_ok. unfold kept. cbn [fst snd].
    split; [apply finish_sized; auto|]. split; [auto|]. split; [exact C|exact C']. }
  all: specialize (HT ltac:(discriminate)); pose proof S1 as (_ & _ & _ & _ & _ & _ & _ & Lt1); get; eapply wp_seq; [exact MT|]; intros ((t0 & m') & s') (A & B & _ & C & CT & C' & CB & CS & _).
  all: eapply wp_seq; [instantiate (1 := any); unfold monoTarTerms; rewrite CT, ET|].
  1: eapply wp_seq; [apply crack_safe; auto; now apply sized_tar|]; intros ? _; eapply wp_seq; [apply surf_safe; auto; now apply sized_tar|]; intros ? _; eapply wp_seq; [apply depo_safe; auto; lia|]; intros ? _; fin_.
  2: eapply wp_seq; [apply crack_safe; auto; now apply sized_tar|]; intros ? _; eapply wp_seq; [apply surf_safe; auto; now apply sized_tar|]; intros ? _; fin_.
  3: fin_.
  all: intros ((T0 & T1) & T2) _; eapply wp_seq; [apply wp_vset; rewrite CS; lia|]; intros ts Ets; apply wp_ok; unfold kept; cbn [fst snd].
  all: split; [apply finish_sized; auto|split; [auto|split; [exact C|exact C']]].
  all: destruct A as (A1 & A2 & (A3 & A4 & A5 & A6) & A7); unfold sizedModel, sizedSources, setTarSources; cbn [sm_nsoot sm_nucl sm_sources with_sources sootSources gasSources pahSources tarSources].
  all: split; [exact A1|split; [exact A2|split; [|exact A7]]].
  all: split; [exact A3|split; [exact A4|split; [exact A5|congruence]]].
Qed.

Lemma logn_safe m s : sizedModel m -> fitState G n nt s -> sm_psd m = P_LOGN -> wp (setSourceTermsLOGN m s) (kept m).
Proof.
  intros SM SS EP. pose proof SS as (Ly & Lp & Ln & Ls & Lw & La & _ & Lt). pose proof SM as (_ & _ & _ & _ & _ & HP & _). unfold sizedPriv in HP. rewrite EP in HP.
  unfold setSourceTermsLOGN. do 3 get. eapply wp_seq; [apply runNucl_safe; auto|].
  { intros _ c mD. unfold collLOGN. destruct (negb (isPAH m)); [apply wp_ok; unfold effOk; now rewrite EP|]. change (sootVar (with_cMin s c)) with (sootVar s). do 3 get. apply wp_ok. unfold effOk; now rewrite EP. }
  intros ((j & m') & s') (A & B & _ & C & _ & C' & _).
  eapply wp_seq; [destruct (growOn m'); [eapply wp_seq; [apply grow_safe; auto using sized_view; now apply sized_grow|intros ? _]|]; apply (wp_ok _ any); auto|]. intros (G1 & G2) _.
  eapply wp_seq; [destruct (oxidOn m'); [eapply wp_seq; [apply oxid_safe; auto using sized_view; now apply sized_oxid|intros ? _]|]; apply (wp_ok _ any); auto|]. intros (X1 & X2) _.
  destruct (lognCoag _ _ _ _ _) as (C0 & C2). apply wp_ok. unfold kept. cbn [fst snd]. split; [apply finish_sized; auto|]. split; [auto|]. split; [exact C|exact C'].
Qed.

Lemma downselect_safe eig (M : list num) e : 1 <= e -> 2 * e <= length M -> wp (downselect eig M e) (fun '(w, a) => length w <= e /\ length a <= e).
Proof.
  intros H L. induction e as [|e IH]; [lia|]. destruct e as [|e].
  - cbn [downselect]. get. get. apply wp_ok. cbn. lia.
  - change (downselect eig M (S (S e))) with (let '(w, a) := wheeler eig M (S (S e)) in if badValues w a then downselect eig M (S e) else Ok (w, a)).
    unfold wheeler. destruct (wheelerAB M (S (S e))) as (p & q). destruct (eig _ _ _) as (ev & ec).
    destruct (badValues _ _).
    + eapply wp_mono; [apply IH; lia|]. intros (w & a0) (A & B). lia.
    + apply wp_ok. rewrite !map_length, seq_length. lia.
Qed.
Lemma assign_safe (v w : list num) : length w <= length v -> wp (assignNonneg v w) (fun r => length r = length v).
Proof.
  intros H. unfold assignNonneg. apply (wp_foldM _ (fun r => length r = length v)); auto. intros r i Hi E. apply in_seq in Hi.
  eapply wp_mono; [apply wp_vset; lia|]. cbv beta. intros w0 E0. lia.
Qed.
Lemma getWtsAbs_safe eig (M w a : list num) : 2 <= length M -> length w = Nat.div (length M) 2 -> length a = Nat.div (length M) 2 ->
  wp (getWtsAbs eig M w a) (fun '(w', a') => length w' = length w /\ length a' = length a).
Proof.
  intros H Ew Ea. unfold getWtsAbs. get. destruct (nleb _ _); [apply wp_ok; now rewrite !map_length|].
  assert (D1 : 1 <= length M / 2) by (change 1 with (2 / 2); apply Nat.div_le_mono; lia).
  assert (D2 : 2 * (length M / 2) <= length M) by (apply Nat.mul_div_le; lia).
  eapply wp_seq; [apply downselect_safe; auto|]. intros (wt & at_) (L1 & L2).
  eapply wp_seq; [apply assign_safe; rewrite map_length; lia|]. intros w' E1. eapply wp_seq; [apply assign_safe; rewrite map_length; lia|]. intros a' E2.
  apply wp_ok. rewrite map_length in E1, E2. auto.
Qed.
Lemma mrLoop_safe r acc (w a : list num) : length w <= length a -> wp (qmomMrLoop r acc w a) any.
Proof.
  revert acc a. induction w as [|x w IH]; intros acc a L; [fin_|]. cbn [qmomMrLoop]. destruct (nleb x (nZ 0)); [fin_|].
  destruct a as [|y a]; [cbn in L; lia|]. destruct (nleb y (nZ 0)); [fin_|]. apply IH. cbn in L. lia.
Qed.
Lemma sij_safe r x y : (34 < r -> t = true) -> wp (qmomSij r x y) any.
Proof.
  intros H. unfold qmomSij. apply (wp_foldM _ any); auto. intros ? k Hk _. apply in_seq in Hk. eapply wp_seq; [apply binom_any; auto; lia|]. intros; fin_.
Qed.
Lemma sii_safe r : (34 < r -> t = true) -> wp (qmomSii r) any.
Proof.
  intros H. unfold qmomSii. apply (wp_foldM _ any); auto. intros ? k Hk _. apply in_seq in Hk. eapply wp_seq; [apply binom_any; auto; lia|]. intros; fin_.
Qed.
Lemma qcoag_safe c s r : fitState G n nt s -> (34 < r -> t = true) -> wp (qmomCoag c s r) any.
Proof.
  intros (_ & _ & _ & _ & Lw & La & _) H. unfold qmomCoag. destruct (Nat.eqb r 1); [fin_|]. rewrite La.
  eapply wp_seq; [apply (wp_foldM _ any); auto|].
  { intros ? i Hi _. apply in_seq in Hi. apply (wp_foldM _ any); auto. intros ? j Hj _. apply in_seq in Hj. get. get. eapply wp_seq; [now apply sij_safe|]. intros ? _. get. get. fin_. }
  intros ? _. eapply wp_seq; [now apply sii_safe|]. intros ? _. apply (wp_foldM _ any); auto. intros ? i Hi _. apply in_seq in Hi. get. get. fin_.
Qed.
Lemma qmom_safe eig m s : sizedModel m -> fitState G n nt s -> sm_psd m = P_QMOM -> (coagOn m = true -> 34 < n -> t = true) -> wp (setSourceTermsQMOM eig m s) (kept m).
Proof.
  intros SM SS EP HT. pose proof SS as (Ly & Lp & Ln & Ls & Lw & La & _ & Lt). pose proof (sized_two m SM) as H2.
  unfold setSourceTermsQMOM. eapply wp_seq; [apply getWtsAbs_safe; rewrite Ls; auto|]. intros (w & a) (E1 & E2).
  assert (S1 : fitState G n nt (with_wa s w a)) by (apply sized_wa; auto; congruence). set (s1 := with_wa s w a) in *. cbv beta zeta.
  eapply wp_seq; [apply chem_safe; auto|].
  { intros _ c mD. eapply wp_mono; [apply (collSum_safe (with_cMin s1 c)); exact S1|]. intros p _. unfold effOk. now rewrite EP. }
  intros ((((j & kg) & ko) & m') & s') (A & B & _ & C & _ & C' & _). pose proof B as (_ & _ & _ & _ & Lw' & La' & _).
  eapply wp_seq; [apply wp_mapM|intros cnd _].
  { intros r Hr. unfold qmomCnd. destruct (isPAH m' && Nat.leb 1 r); [|fin_]. eapply wp_seq; [apply (wp_foldM _ any); auto|intros; fin_]. intros ? i Hi _. apply in_seq in Hi. get. get. fin_. }
  assert (SF : forall on k0 r, wp (qmomSurf on k0 s' r) any).
  { intros. unfold qmomSurf. destruct (on && Nat.leb 1 r); [|fin_]. eapply wp_seq; [apply mrLoop_safe; lia|]. intros; fin_. }
  eapply wp_seq; [apply wp_mapM; auto|intros grw _]. eapply wp_seq; [apply wp_mapM; auto|intros oxi _].
  eapply wp_seq; [apply wp_mapM|intros coa _].
  { intros r Hr. assert (CO : coagOn m' = coagOn m) by (unfold coagOn; now rewrite C'). destruct (coagOn m') eqn:EC; [|fin_]. apply in_seq in Hr. destruct A as (A1 & _). apply qcoag_safe; auto. intros Hr'. apply HT; [congruence|lia]. }
  apply wp_ok. unfold kept. cbn [fst snd]. split; [apply finish_sized; auto|]. { unfold combine5. rewrite map_length, seq_length. destruct A as (A1 & _). exact A1. }
  split; [auto|]. split; [exact C|exact C'].
Qed.

Lemma momic_safe m s : sizedModel m -> fitState G n nt s -> sm_psd m = P_MOMIC -> wp (setSourceTermsMOMIC m s) (kept m).
Proof.
  intros SM SS EP. pose proof SS as (Ly & Lp & Ln & Ls & Lw & La & _ & Lt). pose proof SM as (M1 & M2 & M3 & M4 & M5 & HP & MG). unfold sizedPriv in HP. rewrite EP in HP. destruct HP as (Hn & d0 & Ed & SD).
  unfold setSourceTermsMOMIC. eapply wp_seq; [apply (setMoments_safe n); auto; [lia|unfold momicData; rewrite Ed; exact SD]|]. intros d (SD' & _).
  set (m1 := with_priv m (PrivMomic d)). pose proof SD' as (D1 & D2 & D3).
  assert (SM1 : sizedModel m1).
  { unfold sizedModel, sizedPriv, m1. cbn [sm_nsoot sm_nucl sm_grow sm_oxid sm_sources sm_psd sm_tar sm_priv with_priv]. rewrite EP. do 5 (split; [assumption|]). split; [split; [exact Hn|]; exists d; auto|exact MG]. }
  cbv beta zeta. eapply wp_seq; [apply (chem_safe _ m1); auto|].
  { intros HN c mD. unfold collMOMIC. destruct (negb (isPAH m1)) eqn:EI.
    - exfalso. apply M5 in HN. unfold isPAH in EI. change (sm_nucl m1) with (sm_nucl m) in EI. rewrite HN in EI. discriminate.
    - unfold momicData. cbn [m1 sm_priv with_priv]. eapply wp_seq; [now apply bracket_safe|]. intros ? _. eapply wp_seq; [apply g_grid_safe; auto; lia|]. intros ? _. apply wp_ok. unfold effOk. change (sm_psd m1) with (sm_psd m). rewrite EP. eexists. reflexivity. }
  intros ((((j & kg) & ko) & m') & s') (A & B & (c & Es) & C & _ & C' & _ & _ & PM). destruct (PM EP d eq_refl) as (x & Ex & Hx).
  rewrite D1. eapply wp_seq; [apply wp_mapM|intros cnd _].
  { intros r Hr. apply in_seq in Hr. unfold momicCnd. destruct (isPAH m') eqn:EI; [|fin_]. cbn [andb]. destruct (Nat.leb_spec 1 r); [|fin_].
    unfold momicData. rewrite Ex. cbn [id_mass id_Mp6 id_Mq6]. destruct x as [x|]; [|now destruct (Hx eq_refl)].
    eapply wp_seq; [now apply bracket_safe|]. intros ? _. eapply wp_seq; [apply g_grid_safe; auto; lia|]. intros ? _. fin_. }
  eapply wp_seq; [|intros coa _].
  { instantiate (1 := any). destruct (coagOn m'); [|fin_]. get. eapply wp_mono; [apply coagRates_safe; auto; lia|auto]. }
  apply wp_ok. unfold kept. cbn [fst snd]. split; [apply finish_sized; auto|]. { unfold combine5. now rewrite map_length, seq_length. }
  split; [auto|]. split; [exact C|exact C'].
Qed.

Lemma readSoot_safe s : fitState G n nt s -> wp (readSoot n s) any.
Proof. intros (_ & _ & _ & Ls & _). unfold readSoot. eapply wp_mono; [apply wp_mapM|auto]. intros k Hk. apply in_seq in Hk. apply wp_vget. lia. Qed.
Lemma upd_len {A} (v : list A) i x : length (upd v i x) = length v. Proof. apply upd_length. Qed.
Lemma gain_len ns mb x i j k (v : list num) : length (sectGain ns mb x i j k v) = length v.
Proof. unfold sectGain, addAt. destruct (Nat.eqb _ _); rewrite !upd_len; reflexivity. Qed.
Lemma sectCoag_safe c s ns mb nn_ ilnF : b = true -> wp (sectCoag c s ns mb nn_ ilnF) (fun v => length v = ns).
Proof.
  intros Hb. unfold sectCoag. apply (wp_foldM _ (fun v => length v = ns)); [|apply zeros_len]. intros v i _ Ev.
  apply (wp_foldM _ (fun v => length v = ns)); auto. intros v' j _ Ev'. unfold sectPair. destruct (ntrunc _) as [k|]; [|exact Hb].
  apply wp_ok. rewrite gain_len. unfold subAt. destruct (Nat.ltb i j); rewrite ?upd_len; auto.
Qed.
Lemma sect_safe g m s : sizedModel m -> fitState G n nt s -> sm_psd m = P_SECT -> (coagOn m = true -> b = true) ->
  wp (setSourceTermsSECT g m s) (fun '(_, m', s') => kept m (m', s')).
Proof.
  intros SM SS EP Hb. pose proof SM as (M1 & M2 & M3 & M4 & M5 & HP & MG). unfold sizedPriv in HP. rewrite EP in HP. destruct HP as (H2 & LB & F & beta & Ep & Hbeta).
  unfold setSourceTermsSECT. eapply wp_seq; [apply chem_safe; auto|].
  { intros HN c mD. unfold collSECT. rewrite Ep, M1. specialize (Hbeta HN). destruct (Nat.ltb_spec (length beta) n); [lia|].
    eapply wp_seq; [apply readSoot_safe; exact SS|]. intros nv _. apply wp_ok. unfold effOk. rewrite EP. cbn [snd]. rewrite map_length, seq_length. lia. }
  intros ((((j & kg) & ko) & m') & s') (A & B & _ & C & _ & C' & _). pose proof A as (A1 & _). rewrite A1.
  eapply wp_seq; [now apply readSoot_safe|]. intros nv _. cbv beta zeta.
  destruct (match sm_priv m' with PrivSect F0 b0 => (F0, b0) | _ => (nZ 0, []) end) as (F' & beta').
  eapply wp_seq.
  { instantiate (1 := fun _ => True). assert (CO : coagOn m' = coagOn m) by (unfold coagOn; now rewrite C'). destruct (coagOn m') eqn:EC; [|fin_].
    eapply wp_seq; [apply sectCoag_safe; apply Hb; congruence|]. intros; fin_. }
  intros (g' & coa) _. apply wp_ok. unfold kept. cbn [fst snd]. split; [apply finish_sized; auto|]. { unfold combine5. now rewrite map_length, seq_length. }
  split; [auto|]. split; [exact C|exact C'].
Qed.

Lemma call_safe g eig m s : sizedModel m -> fitState G n nt s -> (coagOn m = true -> sm_psd m = P_QMOM -> 34 < n -> t = true) -> (coagOn m = true -> sm_psd m = P_SECT -> b = true) ->
  wp (setSourceTerms g eig m s) (fun '(_, m', s') => kept m (m', s')).
Proof.
  intros SM SS HT HB. pose proof SM as (_ & _ & _ & _ & _ & HP & _). unfold setSourceTerms. unfold sizedPriv in HP. destruct (sm_psd m) eqn:EP; try contradiction.
  - eapply wp_seq; [now apply mono_safe|]. intros (m' & s') K. exact K.
  - eapply wp_seq; [now apply logn_safe|]. intros (m' & s') K. exact K.
  - eapply wp_seq; [apply qmom_safe; auto|]. intros (m' & s') K. exact K.
  - eapply wp_seq; [now apply momic_safe|]. intros (m' & s') K. exact K.
  - apply sect_safe; auto.
Qed.
End Safe.

Section Runs.
Context {N : Num} (G n nt : nat).
Lemma clip_safe k (v : list num) : length v = k -> wp false false (clipNeg (Z.of_nat k) v) (fun w => length w = k).
Proof.
  intros E. unfold clipNeg. rewrite Nat2Z.id. apply (wp_foldM _ (fun w => length w = k)); auto. intros w i Hi Ew. apply in_seq in Hi.
  get. destruct (nltb _ _); [|now apply wp_ok]. eapply wp_mono; [apply wp_vset; lia|]. cbv beta. intros; lia.
Qed.
Lemma set_safe s T_ P_ rho mu yg yp sv ns tv nT c : fitState G n nt s -> fitAction G n nt (ASet T_ P_ rho mu yg yp sv ns tv nT c) ->
  match setState s T_ P_ rho mu yg yp sv ns tv nT c with SetOk s' | SetThrow _ s' => fitState G n nt s' | SetUB => False end.
Proof.
  intros (A & B & C & D & E & F & HG & H) (Y & S & NS & TV & NT). unfold setState.
  assert (SS : fitState G n nt s) by (unfold fitState; auto 10).
  destruct (nleb T_ (nZ 0)); [exact SS|]. destruct (nleb P_ (nZ 0)); [exact SS|]. destruct (nleb rho (nZ 0)); [exact SS|].
  destruct (nleb mu (nZ 0)); [exact SS|]. destruct (nleb c (nZ 0)); [exact SS|]. cbv zeta.
  set (s1 := with_MWGas _ _). assert (S1 : fitState G n nt s1) by exact SS.
  change (st_nsoot s1) with (st_nsoot s). rewrite C. pose proof (clip_safe n sv S) as K. destruct (clipNeg (Z.of_nat n) sv) as [w|?|u]; [|discriminate K|destruct u; try discriminate K; contradiction].
  unfold wp in K. subst ns. clear SS. assert (S2 : fitState G n nt (with_nsoot s1 (Z.of_nat n))) by (unfold fitState in *; cbn; tauto).
  destruct (existsb _ w); [exact S2|]. assert (S3 : fitState G n nt (with_sootVar (with_nsoot s1 (Z.of_nat n)) w)) by (unfold fitState in *; cbn; tauto).
  set (s3 := with_sootVar _ _) in *. change (st_Ntar s3) with (st_Ntar s). rewrite HG. pose proof (clip_safe nt tv TV) as K2. destruct (clipNeg (Z.of_nat nt) tv) as [w2|?|u]; [|discriminate K2|destruct u; try discriminate K2; contradiction].
  unfold wp in K2. subst nT. assert (S4 : fitState G n nt (with_Ntar s3 (Z.of_nat nt))) by (unfold fitState in *; cbn; tauto). clearbody s3.
  destruct (existsb _ w2); [exact S4|]. assert (S5 : fitState G n nt (with_tarVar (with_Ntar s3 (Z.of_nat nt)) w2)) by (unfold fitState in *; cbn; tauto).
  set (s5 := with_tarVar _ _) in *. destruct (existsb _ yg); [exact S5|]. assert (S6 : fitState G n nt (with_yGas s5 yg)) by (unfold fitState in *; cbn; tauto).
  set (s6 := with_yGas s5 yg) in *. destruct (Nat.eqb_spec (length yp) (length (yPah s6))) as [EY|EY]; cbn [negb]; [|exact S6].
  destruct (existsb _ yp); [exact S6|]. destruct (ngtb _ _); [exact S6|]. clearbody s6. unfold fitState in *. cbn. rewrite EY. tauto.
Qed.

Lemma new_sized : G <= 11 -> fitState (N:=N) G n nt (newState n nt).
Proof. intros HG. unfold fitState, newState. cbn. unfold zeros. rewrite !repeat_length. auto 10. Qed.

(** histories *)
Lemma run_safe (t b : bool) l : Forall (fitAction G n nt) l -> forall g m s, sizedModel G n nt m -> fitState G n nt s ->
  (coagOn m = true -> sm_psd m = P_QMOM -> 34 < n -> t = true) -> (coagOn m = true -> sm_psd m = P_SECT -> b = true) ->
  wp t b (runActions (g, m, s) l) (fun '(_, m', s') => kept G n nt m (m', s')).
Proof.
  intros HL. unfold runActions. induction HL as [|a l HA HL IH]; intros g m s SM SS HT HB.
  { apply wp_ok. unfold kept. auto. }
  cbn [foldM]. destruct a as [t_ p rho mu yg yp sv ns tv nT c|eig].
  - cbn [doAction]. pose proof (set_safe s t_ p rho mu yg yp sv ns tv nT c SS HA) as K. destruct (setState s t_ p rho mu yg yp sv ns tv nT c); cbn [bind]; auto.
  - cbn [doAction]. eapply wp_seq; [apply call_safe; eauto|]. intros ((g' & m') & s') (A & B & C & D). cbn [fst snd] in *.
    eapply wp_mono; [apply IH; auto|].
    + unfold coagOn. rewrite C, D. exact HT.
    + unfold coagOn. rewrite C, D. exact HB.
    + intros ((g2 & m2) & s2) (A2 & B2 & C2 & D2). cbn [fst snd] in *. unfold kept. cbn [fst snd]. split; [exact A2|]. split; [exact B2|]. split; congruence.
Qed.

(** a constructed model *)
Lemma build_sized newed p nu gr ox co ta F k (m : model) : build newed p n nu gr ox co nt ta F k = Ok m ->
  p <> P_HMOM -> (p = P_MOMIC -> n <= 7) -> nu_class nu = nu_mech nu -> length (nu_pah nu) = 6 -> (readsTar (nu_class nu) (ta_mech ta) -> 1 <= nt) ->
  enoughGas G (nu_class nu) (gr_class gr) (ox_class ox) (ta_class ta) -> sizedModel G n nt m.
Proof.
  intros H HP HM EN LP HT HG. unfold build in H. destruct (derivedCheck p n (co_mech co) (ta_mech ta)) as [u|?|?] eqn:ED; try discriminate H. cbn [bind] in H. injection H as <-.
  unfold sizedModel, sizedPriv, sizedSources. cbn [sm_nsoot sm_nucl sm_grow sm_oxid sm_sources sm_psd sm_tar sm_priv sm_mBins newSources sootSources gasSources pahSources tarSources].
  unfold zeros. rewrite !repeat_length. split; [reflexivity|]. split; [exact LP|]. split; [auto|]. split; [intros X; apply HT; unfold readsTar; tauto|]. split; [now rewrite EN|]. split; [|exact HG].
  unfold derivedCheck in ED. destruct p; try discriminate ED; try congruence.
  - destruct (Nat.eqb_spec n 2); [|discriminate]. split; auto. intros X. apply HT. unfold readsTar. auto.
  - destruct (Nat.eqb_spec n 3); [auto|discriminate].
  - destruct (Nat.eqb_spec (n mod 2) 1); [discriminate|]. cbn [orb] in ED. destruct (Nat.ltb_spec n 1); [discriminate|].
    assert (E : n mod 2 = 0) by (pose proof (Nat.mod_upper_bound n 2); lia). pose proof (Nat.div_mod n 2 ltac:(lia)) as DM.
    split; [lia|]. apply Nat.even_spec. exists (n / 2). lia.
  - destruct (Nat.ltb_spec n 3); [discriminate|]. cbn [orb] in ED. destruct (Nat.ltb_spec 8 n); [discriminate|]. specialize (HM eq_refl). split; [lia|]. cbn [initPriv].
    eexists. split; [reflexivity|]. unfold sizedInterp. cbn [id_Nmom id_Mp6 id_Mq6]. unfold zeros. rewrite !repeat_length. auto.
  - destruct (Nat.ltb_spec n 2); [discriminate|]. split; [lia|]. cbn [initBins initPriv]. unfold set_mBins. rewrite map_length, seq_length. split; [reflexivity|].
    eexists. eexists. split; [reflexivity|]. rewrite EN. intros ->. unfold zeros. now rewrite repeat_length.
Qed.
End Runs.
