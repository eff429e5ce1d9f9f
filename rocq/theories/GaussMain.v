(** Gauss quadrature as computed by the quadrature method. *)
From Coq Require Import ZArith List Bool Reals Lra Lia.
From Verif Require Import Num Qmom XR XRLemmas SpecValid SpecRates SpecPsd SpecSect SpecQmom InterpProofs RateProofs SectProofs SectMain QmomProofs GaussProofs.
Import ListNotations.
Local Open Scope R_scope.

(** ** pivots *)
Section Pivots.
Context (mo : nat -> R).
Notation aW := (aW mo). Notation bW := (bW mo). Notation sg := (sg mo). Notation sp := (sp mo).
Fixpoint CW (i : nat) : (nat -> R) * (nat -> R) :=
  match i with
  | O => (fun _ => 0, fun k => if Nat.eqb k 0 then 1 else 0)
  | S i => let '(p, q) := CW i in (q, fun k => match k with O => 0 | S k' => q k' end - aW i * q k - bW i * p k)
  end.
Definition co i := snd (CW i).
Definition cP i := fst (CW i).
Lemma co_S i k : co (S i) k = match k with O => 0 | S k' => co i k' end - aW i * co i k - bW i * cP i k.
Proof. unfold co, cP. cbn. destruct (CW i). reflexivity. Qed.
Lemma cP_S i : cP (S i) = co i. Proof. unfold co, cP. cbn. destruct (CW i). reflexivity. Qed.
Lemma co_high i : forall k, ((i < k)%nat -> co i k = 0) /\ ((i <= k)%nat -> cP i k = 0).
Proof.
  induction i as [|i IH]; intros k.
  - split; intros H; unfold co, cP; cbn; [destruct (Nat.eqb_spec k 0); [lia|reflexivity]|reflexivity].
  - split; intros H.
    + rewrite co_S. destruct k as [|k]; [lia|]. rewrite (proj1 (IH k)), (proj1 (IH (S k))), (proj2 (IH (S k))) by lia. ring.
    + rewrite cP_S. apply IH. lia.
Qed.
Lemma co_top i : co i i = 1.
Proof. induction i as [|i IH]; [reflexivity|]. rewrite co_S, IH, (proj1 (co_high i (S i))), (proj2 (co_high i (S i))) by lia. ring. Qed.
Lemma sg_co n i : (i < n)%nat -> forall j, sg i j = Sum n (fun k => co i k * mo (k + j)%nat) /\ sp i j = Sum n (fun k => cP i k * mo (k + j)%nat).
Proof.
  induction i as [|i IH]; intros Hi j.
  - split.
    + rewrite (Sum_one n 0); [|lia|]; [unfold co; cbn; change (sg 0 j) with (mo j); ring|].
      intros k _ E. unfold co; cbn. apply Nat.eqb_neq in E. rewrite E. ring.
    + unfold cP; cbn. rewrite Sum_0; [reflexivity|]. intros; ring.
  - destruct (IH ltac:(lia) j) as (E1 & E2). destruct (IH ltac:(lia) (S j)) as (E3 & _). split.
    + rewrite sg_S, E1, E2, E3.
      rewrite (Sum_ext n (fun k => co (S i) k * mo (k + j)%nat) (fun k => match k with O => 0 | S k' => co i k' * mo (k' + S j)%nat end + (- aW i * (co i k * mo (k + j)%nat) + - bW i * (cP i k * mo (k + j)%nat)))).
      * rewrite Sum_add, Sum_add, !Sum_scal. destruct n as [|n]; [lia|]. rewrite (Sum_first (S n) (fun k => match k with O => 0 | S k' => co i k' * mo (k' + S j)%nat end)) by lia.
        replace (S n - 1)%nat with n by lia. rewrite (Sum_S n (fun k => co i k * mo (k + S j)%nat)). rewrite (proj1 (co_high i n)) by lia. ring.
      * intros k _. rewrite co_S. destruct k as [|k]; [ring|]. replace (k + S j)%nat with (S k + j)%nat by lia. ring.
    + rewrite sp_S, cP_S. exact E1.
Qed.
Lemma pivots_pos n : positiveForm n mo -> forall i, (i < n)%nat -> 0 < sg i i.
Proof.
  intros HP i. induction i as [i IH] using (well_founded_induction Wf_nat.lt_wf). intros Hi.
  assert (LOW : forall j, (j < i)%nat -> sg i j = 0).
  { apply (sg_low mo i); [|lia]. intros q Hq. apply Rgt_not_eq, IH; lia. }
  specialize (HP (map (co i) (seq 0 n))). rewrite map_length, seq_length in HP. specialize (HP eq_refl).
  assert (EL : forall k, (k < n)%nat -> el (map (co i) (seq 0 n)) k = co i k) by (intros; now apply el_seq).
  assert (F : Sum n (fun a => Sum n (fun b => el (map (co i) (seq 0 n)) a * el (map (co i) (seq 0 n)) b * mo (a + b)%nat)) = sg i i).
  { rewrite Sum_swap. rewrite (Sum_ext n _ (fun b => co i b * sg i b)).
    - rewrite (Sum_one n i); [rewrite co_top; ring|exact Hi|]. intros b Hb E. destruct (Nat.lt_ge_cases b i).
      + rewrite LOW by auto. ring.
      + rewrite (proj1 (co_high i b)) by lia. ring.
    - intros b Hb. destruct (sg_co n i Hi b) as (-> & _). rewrite <- Sum_scal. apply Sum_ext. intros a Ha. rewrite !EL by auto. ring. }
  rewrite F in HP. apply HP. exists 1. split; [|lra]. apply in_map_iff. exists i. split; [apply co_top|apply in_seq; lia].
Qed.
End Pivots.

(** ** the recursion on extended reals *)
Lemma wheelerRec_val mo n (PV : forall i, (i < n)%nat -> sg mo i i <> 0) : forall fuel i prev cur,
  (forall j, prev j = Fin (sp mo i j)) -> (forall j, cur j = Fin (sg mo i j)) -> (i + fuel < n)%nat ->
  wheelerRec (N:=XR) fuel (S i) prev cur (Fin (aW mo i)) (Fin (bW mo i)) = map (fun q => (Fin (aW mo q), Fin (bW mo q))) (seq (S i) fuel).
Proof.
  induction fuel as [|f IH]; intros i prev cur Ep Ec H; [reflexivity|].
  cbn [wheelerRec seq map]. cbv zeta. replace (S i - 1)%nat with i by lia.
  assert (EX : forall j, @nsub XR (@nsub XR (cur (S j)) (@nmul XR (Fin (aW mo i)) (cur j))) (@nmul XR (Fin (bW mo i)) (prev j)) = Fin (sg mo (S i) j)).
  { intros j. rewrite !Ec, Ep. fin. rewrite sg_S. reflexivity. }
  assert (EA : @nadd XR (@ndiv XR (@nopp XR (cur (S i))) (cur i)) (@ndiv XR (Fin (sg mo (S i) (S (S i)))) (Fin (sg mo (S i) (S i)))) = Fin (aW mo (S i))).
  { rewrite !Ec. change (@nopp XR (Fin (sg mo i (S i)))) with (Fin (- sg mo i (S i))). change (@ndiv XR) with xdiv. rewrite !xdiv_fin by (apply PV; lia). fin. now rewrite a_S. }
  assert (EB : @ndiv XR (Fin (sg mo (S i) (S i))) (cur i) = Fin (bW mo (S i))).
  { rewrite Ec. change (@ndiv XR) with xdiv. rewrite xdiv_fin by (apply PV; lia). now rewrite b_S. }
  rewrite !EX, EA, EB. f_equal. apply IH; [|exact EX|lia]. intros j. rewrite sp_S. apply Ec.
Qed.
Lemma wheelerAB_val soot n : (1 <= n)%nat -> (forall i, (i < n)%nat -> sg (el soot) i i <> 0) ->
  wheelerAB (N:=XR) (map Fin soot) n = (map Fin (map (aW (el soot)) (seq 0 n)), map Fin (map (bW (el soot)) (seq 1 (n - 1)))).
Proof.
  intros Hn PV. unfold wheelerAB. cbv zeta.
  assert (EM : forall j, @nth (@num XR) j (map Fin soot) (@nZ XR 0) = Fin (el soot j)) by (intros; apply nth_fin).
  assert (EA : @ndiv XR (@nth (@num XR) 1 (map Fin soot) (@nZ XR 0)) (@nth (@num XR) 0 (map Fin soot) (@nZ XR 0)) = Fin (aW (el soot) 0)).
  { rewrite !EM. change (@ndiv XR) with xdiv. rewrite xdiv_fin by exact (PV 0%nat ltac:(lia)). reflexivity. }
  rewrite EA. pose proof (wheelerRec_val (el soot) n PV (n - 1) 0 (fun _ => @nZ XR 0) (fun i => @nth (@num XR) i (map Fin soot) (@nZ XR 0)) (fun _ => eq_refl) EM ltac:(lia)) as W.
  rewrite b_0 in W. change (Fin 0) with (@nZ XR 0) in W. rewrite W.
  apply f_equal2.
  - replace (seq 0 n) with (0%nat :: seq 1 (n - 1)) by (destruct n; [lia|]; cbn [seq]; f_equal; f_equal; lia).
    cbn [map]. f_equal. rewrite !map_map. reflexivity.
  - rewrite !map_map. reflexivity.
Qed.
Lemma sq_val v : @npow XR (Fin v) (nZ 2) = Fin (v ^ 2).
Proof.
  change (@nZ XR 2) with (Fin 2). change (@npow XR) with xpow. unfold xpow. destruct (Req_EM_T 2 0); [lra|].
  assert (I : Int_part 2 = 2%Z).
  { unfold Int_part. rewrite <- (tech_up 2 3); [reflexivity| |]; change (IZR 3) with 3; lra. }
  destruct (Rlt_dec 0 v).
  - f_equal. change 2 with (INR 2). now rewrite Rpower_pow.
  - destruct (Req_EM_T v 0) as [->|]; [destruct (Rlt_dec 0 2); [f_equal; ring|lra]|].
    unfold isInt. rewrite I. destruct (Req_EM_T (IZR 2) 2); [reflexivity|lra].
Qed.
Lemma sum_list n (w x : list R) f : length w = n -> Sum n f = Sum (length w) f. Proof. now intros ->. Qed.

Lemma el_seq1 (f : nat -> R) n i : (i < n)%nat -> el (map f (seq 1 n)) i = f (S i).
Proof. intros H. unfold el. rewrite (nth_indep _ 0 (f 0%nat)) by (now rewrite map_length, seq_length). rewrite map_nth, seq_nth by exact H. reflexivity. Qed.
Lemma wheeler_gauss eig soot n : (1 <= n)%nat -> nonneg soot -> (1 <= length soot)%nat -> positiveForm n (el soot) -> honest eig n ->
  exists w x, wheeler (N:=XR) eig (map Fin soot) n = (map Fin w, map Fin x) /\ length w = n /\ length x = n /\ nonneg w /\
    forall r, (r < 2 * n)%nat -> el soot r = nodeMoment w x r.
Proof.
  intros Hn NN L HP HE. pose proof (pivots_pos (el soot) n HP) as PP.
  assert (PV : forall i, (i < n)%nat -> sg (el soot) i i <> 0) by (intros; apply Rgt_not_eq; now apply PP).
  set (d := map (aW (el soot)) (seq 0 n)). set (b := map (bW (el soot)) (seq 1 (n - 1))). set (e := map (fun y => - sqrt (Rabs y)) b).
  destruct (HE d e) as (val & vec & HD & H1 & H2).
  { unfold d. now rewrite map_length, seq_length. }
  { unfold e, b. now rewrite !map_length, seq_length. }
  assert (EE : map (fun y : xr => @nopp XR (@nsqrt XR (@nabs XR y))) (map Fin b) = map Fin e).
  { unfold e. rewrite !map_map. apply map_ext. intros y. change (@nabs XR (Fin y)) with (Fin (Rabs y)). change (@nsqrt XR) with xsqrt. rewrite xsqrt_fin by apply Rabs_pos. reflexivity. }
  exists (map (fun l => vec l 0%nat ^ 2 * el soot 0) (seq 0 n)), (map val (seq 0 n)). rewrite !map_length, seq_length.
  split; [|split; [reflexivity|split; [reflexivity|split]]].
  - unfold wheeler. rewrite wheelerAB_val by auto. fold d b.
    match goal with |- (let '(_, _) := eig n ?a ?q in _) = _ => replace q with (map Fin e) by (symmetry; exact EE) end.
    destruct (eig n (map Fin d) (map Fin e)) as [ev ec]. cbn [fst snd] in H1, H2. apply f_equal2.
    + rewrite map_map. apply map_ext_in. intros l Hl. apply in_seq in Hl. rewrite (H2 l 0%nat) by lia. rewrite sq_val, nth_fin. reflexivity.
    + rewrite map_map. apply map_ext_in. intros l Hl. apply in_seq in Hl. apply H1. lia.
  - intros y Hy. apply in_map_iff in Hy. destruct Hy as (l & <- & _). apply Rmult_le_pos; [apply pow2_ge_0|]. apply NN, nth_In. lia.
  - intros r Hr. unfold nodeMoment. rewrite map_length, seq_length.
    assert (E1 : forall i, (i < n)%nat -> el d i = aW (el soot) i) by (intros i Hi; unfold d; now rewrite el_seq by auto).
    assert (E2 : forall i, (S i < n)%nat -> el e i ^ 2 = bW (el soot) (S i)).
    { intros i Hi. unfold e, b. rewrite map_map. rewrite el_seq1 by lia.
      set (z := bW (el soot) (S i)). assert (0 < z). { unfold z. rewrite b_S. apply Rdiv_lt_0_compat; apply PP; lia. }
      rewrite Rabs_pos_eq by lra. replace ((- sqrt z) ^ 2) with (sqrt z * sqrt z) by ring. apply sqrt_sqrt. lra. }
    rewrite (gauss_moments (el soot) n PV val vec d e HD E1 E2 Hn r Hr).
    apply Sum_ext. intros l Hl. rewrite !el_seq by auto. reflexivity.
Qed.

(** ** polynomials *)
Fixpoint ev (c : list R) (y : R) : R := match c with [] => 0 | a :: c => a + y * ev c y end.
Lemma ev_sum c y : ev c y = Sum (length c) (fun i => el c i * y ^ i).
Proof.
  induction c as [|a c IH]; [reflexivity|]. cbn [ev length]. rewrite (Sum_first (S (length c))) by lia. replace (S (length c) - 1)%nat with (length c) by lia.
  rewrite IH, <- Sum_scal. unfold el. cbn [nth pow]. f_equal; [ring|]. apply Sum_ext. intros; ring.
Qed.
Lemma form_nodes n N c h (u x : nat -> R) : length c = n -> (forall r, (r < 2 * n - 1)%nat -> h r = Sum N (fun l => u l * x l ^ r)) ->
  Sum n (fun i => Sum n (fun j => el c i * el c j * h (i + j)%nat)) = Sum N (fun l => u l * ev c (x l) ^ 2).
Proof.
  intros L H.
  rewrite (Sum_ext n _ (fun i => Sum N (fun l => Sum n (fun j => u l * (el c i * x l ^ i) * (el c j * x l ^ j))))).
  - rewrite Sum_swap. apply Sum_ext. intros l Hl. rewrite (Sum_ext n _ (fun i => u l * ev c (x l) * (el c i * x l ^ i))).
    + rewrite Sum_scal. rewrite ev_sum, L. ring.
    + intros i Hi. rewrite Sum_scal. rewrite ev_sum, L. ring.
  - intros i Hi. rewrite Sum_swap. apply Sum_ext. intros j Hj. rewrite H by lia. rewrite <- Sum_scal. apply Sum_ext. intros l Hl. rewrite pow_add. ring.
Qed.
(** a polynomial with given roots *)
Fixpoint pm (r prev : R) (c : list R) : list R := match c with [] => [prev] | a :: c' => (prev - r * a) :: pm r a c' end.
Lemma pm_ev r y c : forall prev, ev (pm r prev c) y = prev + (y - r) * ev c y.
Proof. induction c as [|a c IH]; intros prev; cbn [pm ev]; [ring|]. rewrite IH. ring. Qed.
Lemma pm_len r c : forall prev, length (pm r prev c) = S (length c).
Proof. induction c; intros; cbn [pm length]; auto. Qed.
Lemma pm_in r v c : forall prev, last c 0 = v -> c <> [] -> last (pm r prev c) 0 = v.
Proof.
  induction c as [|a [|b c] IH]; intros prev E N; [congruence|exact E|].
  cbn [pm]. cbn [pm] in IH. cbn [last] in *. specialize (IH a E ltac:(discriminate)). destruct (pm r b c) eqn:Q; [apply (f_equal (@length R)) in Q; rewrite pm_len in Q; discriminate|exact IH].
Qed.
Definition roots (rs : list R) : list R := fold_right (fun r c => pm r 0 c) [1] rs.
Lemma roots_len rs : length (roots rs) = S (length rs).
Proof. induction rs as [|r rs IH]; [reflexivity|]. cbn [roots fold_right length]. rewrite pm_len. fold (roots rs). now rewrite IH. Qed.
Lemma roots_last rs : last (roots rs) 0 = 1.
Proof. induction rs as [|r rs IH]; [reflexivity|]. cbn [roots fold_right]. apply pm_in; [exact IH|]. intros E. pose proof (roots_len rs) as Q. fold (roots rs) in E. rewrite E in Q. discriminate. Qed.
Lemma roots_zero rs y : In y rs -> ev (roots rs) y = 0.
Proof.
  induction rs as [|r rs IH]; intros H; [destruct H|]. cbn [roots fold_right]. rewrite pm_ev. fold (roots rs). destruct H as [->|H]; [ring|]. rewrite IH by auto. ring.
Qed.
Lemma last_in (c : list R) : c <> [] -> In (last c 0) c.
Proof. intros H. rewrite (app_removelast_last 0 H) at 2. apply in_or_app. right. now left. Qed.
Lemma weights_pos n h (u x : list R) : length u = n -> length x = n -> positiveForm n h -> (forall r, (r < 2 * n - 1)%nat -> h r = Sum n (fun l => el u l * el x l ^ r)) ->
  forall l, (l < n)%nat -> 0 < el u l.
Proof.
  intros Lu Lx HP H l Hl. set (rs := firstn l x ++ skipn (S l) x).
  assert (LR : length (roots rs) = n) by (rewrite roots_len; unfold rs; rewrite app_length, firstn_length, skipn_length; lia).
  specialize (HP (roots rs) LR). rewrite (form_nodes n n (roots rs) h (el u) (el x) LR H) in HP.
  assert (Z : forall q, (q < n)%nat -> q <> l -> ev (roots rs) (el x q) = 0).
  { intros q Hq Ne. apply roots_zero. unfold rs. apply in_or_app. destruct (Nat.lt_ge_cases q l).
    - left. unfold el. rewrite <- (firstn_skipn l x), app_nth1 by (rewrite firstn_length; lia). rewrite firstn_app, firstn_firstn. rewrite firstn_length. replace (Nat.min l l) with l by lia.
      apply in_or_app. left. apply nth_In. rewrite firstn_length. lia.
    - right. unfold el. rewrite <- (firstn_skipn (S l) x) at 1. rewrite app_nth2 by (rewrite firstn_length; lia). apply nth_In. rewrite firstn_length, skipn_length. lia. }
  rewrite (Sum_one n l) in HP by (auto; intros q Hq Ne; rewrite Z by auto; ring).
  assert (P : 0 < el u l * ev (roots rs) (el x l) ^ 2).
  { apply HP. exists 1. split; [|lra]. rewrite <- (roots_last rs). apply last_in. intros E. rewrite E in LR. cbn in LR. lia. }
  pose proof (pow2_ge_0 (ev (roots rs) (el x l))) as Q. set (z := ev (roots rs) (el x l) ^ 2) in *.
  destruct (Rlt_dec 0 (el u l)) as [|N]; [assumption|]. exfalso. assert (el u l * z <= 0) by nra. lra.
Qed.
(** a non-zero polynomial has fewer roots than coefficients *)
Fixpoint qq (r : R) (c : list R) : list R := match c with [] => [] | _ :: c' => ev c r :: qq r c' end.
Lemma qq_len r c : length (qq r c) = length c. Proof. induction c; cbn [qq length]; auto. Qed.
Lemma qq_ev r y c : ev c y - ev c r = match c with [] => 0 | _ :: c' => (y - r) * ev (qq r c') y end.
Proof.
  induction c as [|a c IH]; [cbn; ring|]. cbn [ev]. destruct c as [|b c]; [cbn; ring|].
  cbn [qq]. cbn [ev] in *. replace (a + y * (b + y * ev c y) - (a + r * (b + r * ev c r))) with ((y - r) * (b + r * ev c r) + y * (b + y * ev c y - (b + r * ev c r))) by ring.
  rewrite IH. ring.
Qed.
Lemma qq_zero r c : (forall y, In y (qq r c) -> y = 0) -> ev c r = 0 /\ forall y, In y c -> y = 0.
Proof.
  induction c as [|a c IH]; intros H; [split; [reflexivity|intros y []]|].
  destruct IH as (E & Z); [intros; apply H; cbn [qq]; now right|]. assert (ev (a :: c) r = 0) by (apply H; now left).
  split; [assumption|]. cbn [ev] in *. rewrite E in *. intros y [<-|Hy]; [lra|now apply Z].
Qed.
Lemma root_bound c : forall rs, (length c <= length rs)%nat -> NoDup rs -> (forall y, In y rs -> ev c y = 0) -> forall y, In y c -> y = 0.
Proof.
  remember (length c) as k eqn:Ek. revert c Ek. induction k as [|k IH]; intros c Ek rs L ND H.
  - destruct c; [intros y []|discriminate].
  - destruct c as [|a c]; [discriminate|]. destruct rs as [|r rs]; [cbn in L; lia|]. cbn [length] in *. injection Ek as Ek. inversion ND; subst.
    assert (Z : forall y, In y (qq r c) -> y = 0).
    { apply (IH (qq r c)) with rs; [now rewrite qq_len|lia|assumption|]. intros y Hy.
      pose proof (qq_ev r y (a :: c)) as E. rewrite (H y), (H r) in E by (cbn; auto).
      assert (y - r <> 0) by (intros Q; apply H2; replace r with y by lra; exact Hy).
      assert (E2 : (y - r) * ev (qq r c) y = 0) by lra. apply Rmult_integral in E2. destruct E2; [contradiction|assumption]. }
    destruct (qq_zero r c Z) as (E & Z2). pose proof (H r (or_introl eq_refl)) as E3. cbn [ev] in E3. rewrite E in E3. intros y [<-|Hy]; [lra|now apply Z2].
Qed.
Lemma pop_form n (u x : list R) : length u = length x -> (n <= length x)%nat -> (forall y, In y u -> 0 < y) -> NoDup x ->
  forall h, (forall r, (r < 2 * n - 1)%nat -> h r = Sum (length x) (fun l => el u l * el x l ^ r)) -> positiveForm n h.
Proof.
  intros L Hn PU ND h H c Lc (y & Hy & Ny). rewrite (form_nodes n (length x) c h (el u) (el x) Lc H).
  assert (PT : forall l, (l < length x)%nat -> 0 <= el u l * ev c (el x l) ^ 2).
  { intros l Hl. apply Rmult_le_pos; [|apply pow2_ge_0]. apply Rlt_le, PU, nth_In. lia. }
  destruct (Sum_nneg _ _ PT) as [P|Z]; [exact P|]. exfalso. apply Ny. apply (root_bound c x); auto; [lia|].
  intros z Hz. apply (In_nth _ _ 0) in Hz. destruct Hz as (l & Hl & <-). fold (el x l).
  assert (ZZ : forall N f, (forall l, (l < N)%nat -> 0 <= f l) -> 0 = Sum N f -> forall l, (l < N)%nat -> f l = 0).
  { clear. induction N as [|N IH]; intros f P E l Hl; [lia|]. rewrite Sum_S in E. pose proof (P N ltac:(lia)). pose proof (Sum_nneg N f ltac:(intros; apply P; lia)).
    destruct (Nat.eq_dec l N) as [->|]; [lra|]. apply IH; [intros; apply P; lia|lra|lia]. }
  pose proof (ZZ _ _ PT Z l Hl) as E. cbv beta in E. assert (0 < el u l) by (apply PU, nth_In; lia).
  apply Rmult_integral in E. destruct E as [E|E]; [lra|]. replace (ev c (el x l) ^ 2) with (ev c (el x l) * ev c (el x l)) in E by ring. apply Rmult_integral in E. tauto.
Qed.
Lemma pop_realizable w x p : population w x -> (p <= length x)%nat -> realizable p (momentsOf w x (2 * p)).
Proof.
  intros (L & PW & PX & ND) Hp.
  assert (EM : forall r, (r < 2 * p)%nat -> el (momentsOf w x (2 * p)) r = Sum (length x) (fun l => el w l * el x l ^ r)).
  { intros r Hr. unfold momentsOf. rewrite el_seq by auto. unfold nodeMoment. now rewrite L. }
  split.
  - apply (pop_form p w x); auto. intros r Hr. apply EM. lia.
  - apply (pop_form p (map (fun l => el w l * el x l) (seq 0 (length x))) x); auto.
    + now rewrite map_length, seq_length.
    + intros y Hy. apply in_map_iff in Hy. destruct Hy as (l & <- & Hl). apply in_seq in Hl. apply Rmult_lt_0_compat; [apply PW|apply PX]; apply nth_In; lia.
    + intros r Hr. rewrite EM by lia. apply Sum_ext. intros l Hl. rewrite el_seq by auto. cbn [pow]. ring.
Qed.
