(** Method of moments with interpolative closure: src/sootModel_MOMIC.cc.
    The functions parametrised by [interpData] are textually duplicated in
    sootModel_HMOM.cc (suffix _L there) and serve both models. *)
From Coq Require Import ZArith List Bool.
From Verif Require Import Num Defs State Binomial Coag Nucl Growth Oxid Tar SootModel Qmom.
Import ListNotations.
Local Open Scope num_scope.

Section Momic.
Context {N : Num}.

(** ** Interpolation among log10 of the moments *)

(** one column of the difference table from the previous one *)
Fixpoint diffs (l : list num) : list num :=
  match l with
  | a :: ((b :: _) as t) => (b - a) :: diffs t
  | _ => []
  end.
(** row 0 of the table whose first column is [l], MOMIC.cc 624-636, HMOM.cc 393-400 *)
Fixpoint diffRow (fuel : nat) (l : list num) : list num :=
  match fuel, l with
  | S f, x :: _ => x :: diffRow f (diffs l)
  | _, _ => []
  end.
Definition set_diffTable (Nmom : nat) (M : list num) : res (list num) :=
  l <- mapM (fun k => x <- vget M k ;; Ok (nlog10 x)) (seq 0 Nmom) ;;
  Ok (diffRow Nmom l).

(** Mr, MOMIC.cc 658-670, HMOM.cc 402-413; row 0 has Nmom >= 3 entries *)
Definition momMr (Nmom : nat) (d : list num) (r : num) : num :=
  let kend := if ngeb r (nZ 0) then Nmom else 3%nat in
  let '(l10Mr, _) :=
    fold_left (fun '(l, coef) k =>
                 (l + coef * nth k d (nZ 0), coef * ((r - nn k) / nn (S k))))
              (seq 1 (kend - 1)) (nth 0 d (nZ 0), r) in
  let value := npow (nZ 10) l10Mr in
  if nfin value then value else nZ 0.

(** set_fractional_moments_Mp6_Mq6, MOMIC.cc 689-699, HMOM.cc 415-423: order of
    entry i is (first + 2 i)/6.  [cnt] is np[Nmom] or nq[Nmom]. *)
Definition fillFrac (Nmom : nat) (d : list num) (first : Z) (cnt : nat) (old : list num) : res (list num) :=
  if Nat.ltb (length old) cnt then UB OutOfBounds else
  Ok (map (fun i => momMr Nmom d (nZ (first + 2 * Z.of_nat i) / nZ 6)) (seq 0 cnt) ++ skipn cnt old).

(** np and nq, MOMIC.cc 54-55 and HMOM.cc 55-56 *)
Definition npMOMIC : list nat := [4;4;7;10;13;16;19;22].
Definition nqMOMIC : list nat := [12;12;15;18;21;24;27;30].
Definition npHMOM : list nat := [4;4;7;10;13;16;19;22;25].
Definition nqHMOM : list nat := [12;12;15;18;21;24;27;30;33].

(** set_diffTable followed by set_fractional_moments *)
Definition setMoments (np nq : list nat) (d : interpData) (M : list num) : res interpData :=
  let n := id_Nmom d in
  row <- set_diffTable n M ;;
  cp <- vget np n ;; p6 <- fillFrac n row (-4) cp (id_Mp6 d) ;;
  cq <- vget nq n ;; q6 <- fillFrac n row (-3) cq (id_Mq6 d) ;;
  Ok (mkInterp n row p6 q6 (id_mass d)).

(** ** Grid functions *)

(** sum of the terms, first to last *)
Definition sumR (l : list (res num)) : res num :=
  match l with [] => Ok (nZ 0) | t :: r => fold_left radd r t end.
(** [c.*x*y], the coefficient 1 being absent in the source *)
Definition cterm (c : Z) (x y : num) : num := if (c =? 1)%Z then x * y else nZ c * x * y.

(** terms c * Mq6[xi+a] * Mq6[yi+b] *)
Definition qterms (q : list num) (xi yi : Z) (l : list (Z * Z * Z)) : res num :=
  sumR (map (fun '(c, a, b) => x <- vgetZ q (xi + a) ;; y <- vgetZ q (yi + b) ;; Ok (cterm c x y)) l).

(** f_l for x <> y; MOMIC.cc 347-382 *)
Definition f0terms : list (Z * Z * Z) := [(1,0,2); (2,1,1); (1,2,0)]%Z.
Definition f1terms : list (Z * Z * Z) := [(1,0,5); (2,1,4); (1,2,3); (1,3,2); (2,4,1); (1,5,0)]%Z.
Definition f2terms : list (Z * Z * Z) :=
  [(1,0,8); (2,1,7); (1,2,6); (2,3,5); (4,4,4); (2,5,3); (1,6,2); (2,7,1); (1,8,0)]%Z.
Definition f3terms : list (Z * Z * Z) :=
  [(1,0,11); (2,1,10); (1,2,9); (3,3,8); (6,4,7); (3,5,6); (3,6,5); (6,7,4); (3,8,3); (1,9,2); (2,10,1); (1,11,0)]%Z.
(** half of f_l for x = y; MOMIC.cc 318-343 *)
Definition f0diag : list (Z * Z * Z) := [(1,0,2); (1,1,1)]%Z.
Definition f1diag : list (Z * Z * Z) := [(1,0,5); (2,1,4); (1,2,3)]%Z.
Definition f2diag : list (Z * Z * Z) := [(1,0,8); (2,1,7); (1,2,6); (2,3,5); (2,4,4)]%Z.
Definition f3diag : list (Z * Z * Z) := [(1,0,11); (2,1,10); (1,2,9); (3,3,8); (6,4,7); (3,5,6)]%Z.

(** Lagrange interpolation in the logarithm to 1/2, MOMIC.cc 384-390 and 459-465.
    [v l] is the grid value number l, evaluated only when needed. *)
Definition qfrac (a b : Z) : num := nZ a / nZ b.
Definition half (y : Z) (v : nat -> res num) : res num :=
  f0 <- v 0%nat ;; f1 <- v 1%nat ;;
  if (y <=? 2)%Z then
    f2 <- v 2%nat ;; f3 <- v 3%nat ;;
    Ok (npow f0 (qfrac 5 16) * npow f1 (qfrac 15 16) * npow f2 (qfrac (-5) 16) * npow f3 (qfrac 1 16))
  else if (y <=? 3)%Z then
    f2 <- v 2%nat ;;
    Ok (npow f0 (qfrac 3 8) * npow f1 (qfrac 3 4) * npow f2 (qfrac (-1) 8))
  else Ok (npow f0 (qfrac 1 2) * npow f1 (qfrac 1 2)).

(** f_grid, MOMIC.cc 308-390, HMOM.cc 495-570 *)
Definition f_grid (q : list num) (x y : Z) : res num :=
  let xi := (x * 3)%Z in let yi := (y * 3)%Z in
  let v l :=
    if (x =? y)%Z then
      t <- qterms q xi yi (nth l [f0diag; f1diag; f2diag; f3diag] []) ;; Ok (nZ 2 * t)
    else qterms q xi yi (nth l [f0terms; f1terms; f2terms; f3terms] []) in
  half y v.

(** terms c * m^(p/6) * Mq6[yi+b] *)
Definition massPow (m : num) (p : Z) : num := npow m (nZ p / nZ 6).
Definition gterms (m : num) (q : list num) (yi : Z) (l : list (Z * Z * Z)) : res num :=
  sumR (map (fun '(c, p, b) => y <- vgetZ q (yi + b) ;; Ok (cterm c (massPow m p) y)) l).
(** MOMIC.cc 420-455 *)
Definition g0terms : list (Z * Z * Z) := [(1,1,0); (2,-1,1); (1,-3,2)]%Z.
Definition g1terms : list (Z * Z * Z) := [(1,7,0); (2,5,1); (1,3,2); (1,1,3); (2,-1,4); (1,-3,5)]%Z.
Definition g2terms : list (Z * Z * Z) :=
  [(1,13,0); (2,11,1); (1,9,2); (2,7,3); (4,5,4); (2,3,5); (1,1,6); (2,-1,7); (1,-3,8)]%Z.
Definition g3terms : list (Z * Z * Z) :=
  [(1,19,0); (2,17,1); (1,15,2); (3,13,3); (6,11,4); (3,9,5); (3,7,6); (6,5,7); (3,3,8); (1,1,9); (2,-1,10); (1,-3,11)]%Z.
(** g_grid, MOMIC.cc 413-467; HMOM.cc 444-493 and the local lambdas 176-201, 354-379 *)
Definition g_grid (m : num) (q : list num) (y : Z) : res num :=
  let yi := ((y - 1) * 3)%Z in
  half y (fun l => gterms m q yi (nth l [g0terms; g1terms; g2terms; g3terms] [])).

(** the continuum bracket of one mass against the moments around [kk]:
    MOMIC.cc 173-180 and 580-587, HMOM.cc 209-216, 345-352, 580-582 *)
Definition contBracket (m Kcp : num) (p6 : list num) (kk : nat) : res num :=
  a0 <- vget p6 (kk + 0) ;; a1 <- vget p6 (kk + 1) ;; a2 <- vget p6 (kk + 2) ;; a3 <- vget p6 (kk + 3) ;;
  let m26 := massPow m 2 in let mn26 := massPow m (-2) in let mn46 := massPow m (-4) in
  Ok (m26 * a1 + nZ 2 * a2 + mn26 * a3 + Kcp * (m26 * a0 + a1 + mn26 * a2 + mn46 * a3)).

(** ** Coagulation rates, MOMIC.cc 479-552, HMOM.cc 593-661 *)

(** free-molecular rate of moment r <> 1 *)
Definition momCoagFM (Kfm : num) (q : list num) (r : nat) : res num :=
  match r with
  | O => f <- f_grid q 0 0 ;; Ok (nlit (-5) (-1) * Kfm * f)
  | _ =>
      t <- foldM (fun acc k =>
             b <- binomial_coefficient (Z.of_nat r) (Z.of_nat k) ;;
             f <- f_grid q (Z.of_nat k) (Z.of_nat (r - k)) ;;
             Ok (acc + b * f)) (seq 1 (r - 1)) (nZ 0) ;;
      Ok (t * (nlit 5 (-1) * Kfm))
  end.

(** the k-th term of the continuum sum, MOMIC.cc 525-532 *)
Definition contTerm (Kcp : num) (p6 : list num) (r k : nat) : res num :=
  let kk := (k * 3)%nat in let rk := ((r - k) * 3)%nat in
  b <- binomial_coefficient (Z.of_nat r) (Z.of_nat k) ;;
  a0 <- vget p6 (kk + 0) ;; a1 <- vget p6 (kk + 1) ;; a2 <- vget p6 (kk + 2) ;; a3 <- vget p6 (kk + 3) ;;
  b0 <- vget p6 (rk + 0) ;; b1 <- vget p6 (rk + 1) ;; b2 <- vget p6 (rk + 2) ;; b3 <- vget p6 (rk + 3) ;;
  Ok (b * (a1 * b3 + nZ 2 * a2 * b2 + a3 * b1 + Kcp * (a0 * b3 + a1 * b2 + a2 * b1 + a3 * b0))).

(** continuum rate of moment r <> 1.  The loop assigns [Rates_C[r] = ...]
    (525; no accumulation), so each pass discards the previous value. *)
Definition momCoagC (Kc Kcp : num) (p6 : list num) (r : nat) : res num :=
  match r with
  | O =>
      a0 <- vget p6 0 ;; a1 <- vget p6 1 ;; a2 <- vget p6 2 ;; a3 <- vget p6 3 ;;
      Ok (- Kc * (a2 * a2 + a1 * a3 + Kcp * (a1 * a2 + a0 * a3)))
  | _ =>
      t <- foldM (fun _ k => contTerm Kcp p6 r k) (seq 1 (r - 1)) (nZ 0) ;;
      Ok (t * (nlit 5 (-1) * Kc))
  end.

(** MOMICCoagulationRates / HMOMCoagulationRates_LL.  The guard [M[0] <= 0] is an argument. *)
Definition momCoagRates (c : coagObj) (s : state) (Nmom : nat) (p6 q6 : list num) (M0 : num) : res (list num) :=
  if nleb M0 (nZ 0) then Ok (zeros Nmom) else
  let Kfm := getKfm c s in let Kc := getKc s in let Kcp := getKcp s in
  let useFM := match co_mech c with C_FM | C_HM => true | _ => false end in
  let useC := match co_mech c with C_CONTINUUM | C_HM => true | _ => false end in
  let all (f : nat -> res num) := mapM (fun r => if Nat.eqb r 1 then Ok (nZ 0) else f r) (seq 0 Nmom) in
  fm <- (if useFM then all (momCoagFM Kfm q6) else Ok (zeros Nmom)) ;;
  cc <- (if useC then all (momCoagC Kc Kcp p6) else Ok (zeros Nmom)) ;;
  Ok (map (fun r =>
        if Nat.eqb r 1 then nZ 0 else
        let a := nth r fm (nZ 0) in let b := nth r cc (nZ 0) in
        match co_mech c with
        | C_FM => a
        | C_CONTINUUM => b
        | _ => a * b / (a + b)
        end) (seq 0 Nmom)).

(** ** MOMIC source terms *)

Definition momicData (m : model) : interpData :=
  match sm_priv m with PrivMomic d | PrivHmom d => d | _ => mkInterp 0 [] [] [] None end.

(** sootModel_MOMIC::pahSootCollisionRatePerDimer, MOMIC.cc 569-599.  It stores the
    powers of [nucl->DIMER.mDimer], which equals the argument. *)
Definition collMOMIC (m : model) (s : state) (mD : num) : res (num * list num) :=
  if negb (isPAH m) then Ok (nZ 0, []) else
  let d := momicData m in
  br <- contBracket mD (getKcp s) (id_Mp6 d) 0 ;;
  let Ic1 := getKc s * br in
  g <- g_grid mD (id_Mq6 d) 1 ;;
  let Ifm1 := getKfm (sm_coag m) s * g in
  Ok (Ifm1 * Ic1 / (Ifm1 + Ic1), [mD]).

(** PAH condensation, MOMIC.cc 148-192.  [kk] is set once, to 0, before the
    loop (172) and never updated. *)
Definition momicCnd (m : model) (s : state) (k : nat) : res num :=
  if isPAH m && Nat.leb 1 k then
    let d := momicData m in
    match id_mass d with
    | None => UB Uninit
    | Some mp =>
        let mD := mDimer (sm_nucl m) in let nD := nDimer (sm_nucl m) in
        br <- contBracket mp (getKcp s) (id_Mp6 d) 0 ;;
        let cC := nn k * getKc s * nD * mD * br in
        g <- g_grid mp (id_Mq6 d) (Z.of_nat k) ;;
        let cFM := nn k * getKfm (sm_coag m) s * nD * mD * g in
        Ok (cFM * cC / (cFM + cC))
    end
  else Ok (nZ 0).

(** growth and oxidation, MOMIC.cc 194-209 *)
Definition momicSurf (on : bool) (rate : num) (d : interpData) (k : nat) : num :=
  if on && Nat.leb 1 k then rate * Acoef * nn k * momMr (id_Nmom d) (id_diff0 d) (nn k - onethird)
  else nZ 0.

(** sootModel_MOMIC::setSourceTerms, MOMIC.cc 121-242 (downselectIfNeeded is commented out, 132) *)
Definition setSourceTermsMOMIC (m : model) (s : state) : res (model * state) :=
  d <- setMoments npMOMIC nqMOMIC (momicData m) (sootVar s) ;;
  let m := with_priv m (PrivMomic d) in
  let M := sootVar s in
  ' (Jnuc, Kgrw, Koxi, m, s) <- chemRates (collMOMIC m) m s ;;
  let n := id_Nmom d in
  let ks := seq 0 n in
  let mNuc := mNucOf s in
  let nuc k := if nuclOn m then npow mNuc (nn k) * Jnuc else nZ 0 in
  cnd <- mapM (momicCnd m s) ks ;;
  let grw := momicSurf (growOn m) Kgrw d in
  let oxi := momicSurf (oxidOn m) (- Koxi) d in
  coa <- (if coagOn m then M0 <- vget M 0 ;; momCoagRates (sm_coag m) s n (id_Mp6 d) (id_Mq6 d) M0
          else Ok (zeros n)) ;;
  let at_ l k := nth k l (nZ 0) in
  Ok (finish m (combine5 n nuc (at_ cnd) grw oxi (at_ coa)) (nuc 1%nat) (grw 1%nat) (oxi 1%nat), s).

End Momic.
