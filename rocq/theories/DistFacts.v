(** * DistFacts: the Gaussian integral. *)
From Coq Require Import Reals Lra Lia.
From Coquelicot Require Import Coquelicot.
From Verif Require Import Distributions DistSpec.
Local Open Scope R_scope.

Ltac toR := match goal with |- @eq _ ?x ?y => change (@eq R x y) end.

Definition e2 (x : R) : R := exp (- x ^ 2).
Definition I (t : R) : R := RInt e2 0 t.
Definition k (t x : R) : R := exp (- t ^ 2 * (1 + x ^ 2)) / (1 + x ^ 2).
Definition J (t : R) : R := RInt (k t) 0 1.

Lemma e2_derive x : ex_derive e2 x.
Proof. unfold e2. auto_derive. exact Logic.I. Qed.
Lemma e2_cont x : continuous e2 x.
Proof. apply (ex_derive_continuous (V := R_NormedModule)). apply e2_derive. Qed.
Lemma e2_int a b : ex_RInt e2 a b.
Proof. apply (ex_RInt_continuous (V := R_CompleteNormedModule)). intros x _. apply e2_cont. Qed.

Lemma den_pos x : 0 < 1 + x ^ 2.
Proof. pose proof (pow2_ge_0 x). lra. Qed.

Lemma k_derive t x : is_derive (fun u => k u x) t (- 2 * t * exp (- t ^ 2 * (1 + x ^ 2))).
Proof.
  unfold k. pose proof (den_pos x). auto_derive; [lra|]. replace (t * (t * 1)) with (t ^ 2) by ring.
  replace (x * (x * 1)) with (x ^ 2) by ring. field. lra.
Qed.
Lemma k_cont t x : continuous (k t) x.
Proof. apply (ex_derive_continuous (V := R_NormedModule)). unfold k. pose proof (den_pos x). auto_derive. simpl in H. lra. Qed.
Lemma k_int t a b : ex_RInt (k t) a b.
Proof. apply (ex_RInt_continuous (V := R_CompleteNormedModule)). intros x _. apply k_cont. Qed.

Lemma I_derive t : is_derive I t (e2 t).
Proof.
  unfold I. apply (is_derive_RInt (V := R_NormedModule) e2 (fun t => RInt e2 0 t) 0 t).
  - apply filter_forall. intros x. apply (RInt_correct (V := R_CompleteNormedModule)). apply e2_int.
  - apply e2_cont.
Qed.

Lemma J_derive t : is_derive J t (RInt (fun x => - 2 * t * exp (- t ^ 2 * (1 + x ^ 2))) 0 1).
Proof.
  assert (H : is_derive (fun u => RInt (fun x => k u x) 0 1) t (RInt (fun x => Derive (fun u => k u x) t) 0 1)).
  { apply (is_derive_RInt_param k 0 1 t).
    - apply filter_forall. intros u x _. eexists. apply k_derive.
    - intros x _. apply (continuity_2d_pt_ext (fun u v => - 2 * u * exp (- u ^ 2 * (1 + v ^ 2)))).
      + intros u v. symmetry. apply is_derive_unique. apply k_derive.
      + apply continuity_2d_pt_mult.
        * apply continuity_2d_pt_mult; [apply continuity_2d_pt_const|apply continuity_2d_pt_id1].
        * apply (continuity_1d_2d_pt_comp exp (fun u v => - u ^ 2 * (1 + v ^ 2))).
          -- apply derivable_continuous_pt. apply derivable_pt_exp.
          -- apply continuity_2d_pt_mult.
             ++ apply continuity_2d_pt_opp. apply (continuity_2d_pt_ext (fun u v => u * u)); [intros; ring|].
                apply continuity_2d_pt_mult; apply continuity_2d_pt_id1.
             ++ apply continuity_2d_pt_plus; [apply continuity_2d_pt_const|].
                apply (continuity_2d_pt_ext (fun u v => v * v)); [intros; ring|]. apply continuity_2d_pt_mult; apply continuity_2d_pt_id2.
    - apply filter_forall. intros u. apply k_int. }
  unfold J. evar_last; [exact H|]. apply RInt_ext. intros x _. apply is_derive_unique. apply k_derive.
Qed.

(** Substituting [t x]. *)
Lemma J_prime t : RInt (fun x => - 2 * t * exp (- t ^ 2 * (1 + x ^ 2))) 0 1 = - 2 * e2 t * I t.
Proof.
  assert (H : is_RInt (fun x => scal t (e2 (t * x + 0))) 0 1 (I t)).
  { apply (is_RInt_comp_lin (V := R_NormedModule) e2 t 0 0 1). replace (t * 0 + 0) with 0 by ring. replace (t * 1 + 0) with t by ring.
    apply (RInt_correct (V := R_CompleteNormedModule)). apply e2_int. }
  apply is_RInt_unique. apply (is_RInt_ext (fun x => scal (- 2 * e2 t) (scal t (e2 (t * x + 0))))).
  - intros x _. unfold e2, scal; simpl; unfold mult; simpl. rewrite Rplus_0_r.
    replace (- (t * (t * 1)) * (1 + x * (x * 1))) with (- (t * (t * 1)) + - (t * x * (t * x * 1))) by ring. rewrite exp_plus. ring.
  - replace (- 2 * e2 t * I t) with (scal (- 2 * e2 t) (I t)) by (unfold scal; simpl; unfold mult; simpl; ring).
    apply (is_RInt_scal (V := R_NormedModule)). exact H.
Qed.

Lemma GJ_derive t : is_derive (fun u => I u ^ 2 + J u) t 0.
Proof.
  assert (H2 : is_derive (fun u => I u ^ 2) t (2 * I t * e2 t)).
  { evar_last; [apply (is_derive_pow I 2 t (e2 t) (I_derive t))|]. simpl. ring. }
  evar_last; [apply (is_derive_plus (V := R_NormedModule) (fun u => I u ^ 2) J t); [exact H2|apply J_derive]|].
  rewrite J_prime. unfold plus; simpl. ring.
Qed.

Lemma J0 : J 0 = PI / 4.
Proof.
  unfold J. assert (H : is_RInt (fun x => / (1 + x ^ 2)) 0 1 (minus (atan 1) (atan 0))).
  { apply (is_RInt_derive (V := R_CompleteNormedModule) atan (fun x => / (1 + x ^ 2))).
    - intros x _. apply is_derive_Reals.
      apply derivable_pt_lim_atan.
    - intros x _. apply (ex_derive_continuous (V := R_NormedModule)). pose proof (den_pos x). auto_derive. simpl in H. lra. }
  apply is_RInt_unique. apply (is_RInt_ext (fun x => / (1 + x ^ 2))).
  - intros x _. unfold k. replace (- 0 ^ 2 * (1 + x ^ 2)) with 0 by ring. rewrite exp_0. toR. field. pose proof (den_pos x). lra.
  - rewrite atan_0, atan_1 in H. replace (minus (PI / 4) 0) with (PI / 4) in H by (unfold minus, plus, opp; simpl; ring). exact H.
Qed.

Lemma I_sqr t : I t ^ 2 + J t = PI / 4.
Proof.
  assert (H : forall u, I u ^ 2 + J u = I 0 ^ 2 + J 0).
  { intros u. destruct (Req_dec u 0) as [->|Hu]; [reflexivity|].
    assert (Hc : forall a b, a < b -> (fun u => I u ^ 2 + J u) a = (fun u => I u ^ 2 + J u) b).
    { intros a b Hab. apply (eq_is_derive (V := R_NormedModule) (fun u => I u ^ 2 + J u) a b); [|exact Hab]. intros x _. apply GJ_derive. }
    destruct (Rlt_dec u 0) as [H|H]; [apply (Hc u 0 H)|symmetry; apply (Hc 0 u)]. lra. }
  rewrite H, J0. unfold I. rewrite RInt_point. unfold zero; simpl. ring.
Qed.

Lemma J_bounds t : 0 <= J t <= exp (- t ^ 2).
Proof.
  assert (Hk : forall x, 0 <= k t x <= exp (- t ^ 2)).
  { intros x. unfold k. pose proof (den_pos x) as Hd. pose proof (exp_pos (- t ^ 2 * (1 + x ^ 2))) as He. split.
    - apply Rlt_le. apply Rdiv_lt_0_compat; assumption.
    - apply Rle_trans with (exp (- t ^ 2 * (1 + x ^ 2)) / 1).
      + unfold Rdiv. apply Rmult_le_compat_l; [lra|]. apply Rinv_le_contravar; [lra|]. pose proof (pow2_ge_0 x). lra.
      + rewrite Rdiv_1. assert (- t ^ 2 * (1 + x ^ 2) <= - t ^ 2) as Hle.
        { pose proof (pow2_ge_0 x). pose proof (pow2_ge_0 t). nra. }
        destruct Hle as [Hle| ->]; [left; apply exp_increasing; exact Hle|right; reflexivity]. }
  split.
  - apply RInt_ge_0; [lra|apply k_int|]. intros x _. apply Hk.
  - apply Rle_trans with (RInt (fun _ => exp (- t ^ 2)) 0 1).
    + apply RInt_le; [lra|apply k_int|apply ex_RInt_const|]. intros x _. apply Hk.
    + rewrite RInt_const. unfold scal; simpl; unfold mult; simpl. right. ring.
Qed.

Lemma I_pos t : 0 <= t -> 0 <= I t.
Proof. intros Ht. apply RInt_ge_0; [exact Ht|apply e2_int|]. intros x _. unfold e2. left. apply exp_pos. Qed.

Lemma exp_small eps : 0 < eps -> exists M, 0 < M /\ forall t, M < t -> exp (- t ^ 2) < eps.
Proof.
  intros He. exists (1 + / eps). pose proof (Rinv_0_lt_compat _ He) as Hi. split; [lra|]. intros t Ht.
  rewrite exp_Ropp. rewrite <- (Rinv_inv eps). apply Rinv_lt_contravar; [apply Rmult_lt_0_compat; [exact Hi|apply exp_pos]|].
  apply Rlt_trans with (1 + t ^ 2); [nra|]. apply exp_ineq1. nra.
Qed.

Lemma sqrt_PI_half : (sqrt PI / 2) ^ 2 = PI / 4.
Proof. unfold Rdiv. rewrite Rpow_mult_distr. rewrite <- Rsqr_pow2. rewrite Rsqr_sqrt by (left; apply PI_RGT_0). field. Qed.
Lemma sqrt_PI_pos : 0 < sqrt PI.
Proof. apply sqrt_lt_R0. apply PI_RGT_0. Qed.

Lemma I_limit eps : 0 < eps -> exists M, 0 < M /\ forall t, M < t -> Rabs (I t - sqrt PI / 2) < eps.
Proof.
  intros He. pose proof sqrt_PI_pos as Hs. destruct (exp_small (eps * (sqrt PI / 2))) as (M & HM & H); [nra|].
  exists M. split; [exact HM|]. intros t Ht. pose proof (H t Ht) as Hexp. pose proof (I_sqr t) as Hq. pose proof (J_bounds t) as HJ.
  pose proof (I_pos t ltac:(lra)) as Hi. rewrite <- sqrt_PI_half in Hq. set (c := sqrt PI / 2) in *.
  assert (Hc : 0 < c) by (unfold c; lra).
  assert (Hle : I t <= c) by nra. rewrite Rabs_left1 by lra.
  assert (Hprod : (c - I t) * (c + I t) = J t) by (simpl in Hq; nra). nra.
Qed.

Lemma I_odd t : I (- t) = - I t.
Proof.
  assert (H : is_RInt (fun x => scal (-1) (e2 (-1 * x + 0))) 0 t (I (- t))).
  { apply (is_RInt_comp_lin (V := R_NormedModule) e2 (-1) 0 0 t). replace (-1 * 0 + 0) with 0 by ring. replace (-1 * t + 0) with (- t) by ring.
    apply (RInt_correct (V := R_CompleteNormedModule)). apply e2_int. }
  assert (H' : is_RInt (fun x => scal (-1) (e2 (-1 * x + 0))) 0 t (- I t)).
  { apply (is_RInt_ext (fun x => scal (-1) (e2 x))).
    - intros x _. unfold e2. f_equal. f_equal. ring.
    - replace (- I t) with (scal (-1) (I t)) by (unfold scal; simpl; unfold mult; simpl; ring).
      apply (is_RInt_scal (V := R_NormedModule)). apply (RInt_correct (V := R_CompleteNormedModule)). apply e2_int. }
  rewrite <- (is_RInt_unique _ _ _ _ H). apply is_RInt_unique. exact H'.
Qed.

Lemma e2_RInt a b : is_RInt e2 a b (I b - I a).
Proof.
  evar_last; [apply (is_RInt_Chasles (V := R_NormedModule) e2 a 0 b); [apply (is_RInt_swap (V := R_NormedModule)); apply (RInt_correct (V := R_CompleteNormedModule)); apply e2_int|apply (RInt_correct (V := R_CompleteNormedModule)); apply e2_int]|].
  unfold plus, opp; simpl. unfold I. ring.
Qed.

(** ** Gaussian *)
Lemma Gaussian_abs x mu sig : Gaussian x mu (Rabs sig) = Gaussian x mu sig.
Proof. unfold Gaussian. rewrite !pow2_abs. reflexivity. Qed.

Lemma sqrt2_pos : 0 < sqrt 2. Proof. apply sqrt_lt_R0. lra. Qed.
Lemma Gaussian_form x mu sig : 0 < sig ->
  Gaussian x mu sig = / (sqrt PI) * (/ (sig * sqrt 2) * e2 (/ (sig * sqrt 2) * x + - mu / (sig * sqrt 2))).
Proof.
  intros Hs. pose proof sqrt2_pos as H2. pose proof sqrt_PI_pos as Hp. pose proof PI_RGT_0 as Hpi. unfold Gaussian, e2.
  replace (2 * PI * sig ^ 2) with (PI * (sig * sqrt 2) ^ 2).
  - rewrite sqrt_mult; [|lra|apply pow2_ge_0]. rewrite sqrt_pow2 by nra.
    replace (- (/ (sig * sqrt 2) * x + - mu / (sig * sqrt 2)) ^ 2) with (- (x - mu) ^ 2 / (2 * sig ^ 2)).
    + field. split; [lra|]. split; lra.
    + replace (2 * sig ^ 2) with ((sig * sqrt 2) ^ 2); [field; split; lra|]. rewrite Rpow_mult_distr, pow2_sqrt by lra. ring.
  - rewrite Rpow_mult_distr, pow2_sqrt by lra. ring.
Qed.

Lemma Gaussian_RInt mu sig a b : 0 < sig ->
  is_RInt (fun x => Gaussian x mu sig) a b (/ sqrt PI * (I ((b - mu) / (sig * sqrt 2)) - I ((a - mu) / (sig * sqrt 2)))).
Proof.
  intros Hs. pose proof sqrt2_pos as H2.
  apply (is_RInt_ext (fun x => scal (/ sqrt PI) (scal (/ (sig * sqrt 2)) (e2 (/ (sig * sqrt 2) * x + - mu / (sig * sqrt 2)))))).
  - intros x _. rewrite (Gaussian_form x mu sig Hs). reflexivity.
  - match goal with |- is_RInt _ _ _ (?a * ?b) => replace (a * b) with (scal a b) by reflexivity end.
    apply (is_RInt_scal (V := R_NormedModule)). apply (is_RInt_comp_lin (V := R_NormedModule) e2).
    replace (/ (sig * sqrt 2) * a + - mu / (sig * sqrt 2)) with ((a - mu) / (sig * sqrt 2)) by (field; split; lra).
    replace (/ (sig * sqrt 2) * b + - mu / (sig * sqrt 2)) with ((b - mu) / (sig * sqrt 2)) by (field; split; lra).
    apply e2_RInt.
Qed.

Lemma Gaussian_normalised_pos mu sig : 0 < sig -> integrates_to (fun x => Gaussian x mu sig) 1.
Proof.
  intros Hs. pose proof sqrt2_pos as H2. pose proof sqrt_PI_pos as Hp.
  split; [intros a b; eexists; apply Gaussian_RInt; exact Hs|]. intros eps He.
  destruct (I_limit (sqrt PI * eps / 2)) as (M & HM & H); [nra|].
  assert (Hd : 0 < sig * sqrt 2) by nra.
  exists (M * (sig * sqrt 2) + Rabs mu). intros a b Ha Hb.
  rewrite (is_RInt_unique _ _ _ _ (Gaussian_RInt mu sig a b Hs)).
  pose proof (Rle_abs mu) as M1. pose proof (Rle_abs (- mu)) as M2. rewrite Rabs_Ropp in M2.
  assert (HB : M < (b - mu) / (sig * sqrt 2)).
  { apply Rmult_lt_reg_r with (sig * sqrt 2); [exact Hd|]. unfold Rdiv. rewrite Rmult_assoc, Rinv_l by lra. lra. }
  assert (HA : M < - ((a - mu) / (sig * sqrt 2))).
  { apply Rmult_lt_reg_r with (sig * sqrt 2); [exact Hd|]. replace (- ((a - mu) / (sig * sqrt 2)) * (sig * sqrt 2)) with (mu - a) by (field; split; lra). lra. }
  pose proof (H _ HB) as H1. pose proof (H _ HA) as H3. rewrite I_odd in H3.
  set (u := I ((b - mu) / (sig * sqrt 2))) in *. set (v := I ((a - mu) / (sig * sqrt 2))) in *.
  replace (/ sqrt PI * (u - v) - 1) with (/ sqrt PI * ((u - sqrt PI / 2) + (- v - sqrt PI / 2))) by (field; lra).
  rewrite Rabs_mult, (Rabs_right (/ sqrt PI)) by (apply Rle_ge; left; apply Rinv_0_lt_compat; exact Hp).
  apply Rmult_lt_reg_l with (sqrt PI); [exact Hp|]. rewrite <- Rmult_assoc, Rinv_r, Rmult_1_l by lra.
  eapply Rle_lt_trans; [apply Rabs_triang|]. lra.
Qed.

Lemma integrates_ext f g l : (forall x, f x = g x) -> integrates_to f l -> integrates_to g l.
Proof.
  intros E [H1 H2]. split.
  - intros a b. apply (ex_RInt_ext f); [intros x _; apply E|apply H1].
  - intros eps He. destruct (H2 eps He) as (M & HM). exists M. intros a b Ha Hb. rewrite <- (RInt_ext f g); [apply HM; assumption|]. intros x _. apply E.
Qed.
Lemma integrates_scal c f l : integrates_to f l -> integrates_to (fun x => c * f x) (c * l).
Proof.
  intros [H1 H2]. assert (Hi : forall a b, is_RInt (fun x => c * f x) a b (c * RInt f a b)).
  { intros a b. apply (is_RInt_scal (V := R_NormedModule) f a b c). apply (RInt_correct (V := R_CompleteNormedModule)). apply H1. }
  split; [intros a b; eexists; apply Hi|]. intros eps He. destruct (H2 (eps / (1 + Rabs c))) as (M & HM).
  - pose proof (Rabs_pos c). apply Rdiv_lt_0_compat; lra.
  - exists M. intros a b Ha Hb. rewrite (is_RInt_unique _ _ _ _ (Hi a b)). rewrite <- Rmult_minus_distr_l, Rabs_mult.
    specialize (HM a b Ha Hb). pose proof (Rabs_pos c) as Hc. pose proof (Rabs_pos (RInt f a b - l)) as Hr.
    apply Rle_lt_trans with ((1 + Rabs c) * Rabs (RInt f a b - l)); [nra|].
    apply Rlt_le_trans with ((1 + Rabs c) * (eps / (1 + Rabs c))); [apply Rmult_lt_compat_l; lra|]. right. field. lra.
Qed.

Theorem Gaussian_normalised mu sig : sig <> 0 -> integrates_to (fun x => Gaussian x mu sig) 1.
Proof.
  intros Hs. apply (integrates_ext (fun x => Gaussian x mu (Rabs sig))); [intros x; apply Gaussian_abs|].
  apply Gaussian_normalised_pos. apply Rabs_pos_lt. exact Hs.
Qed.

Lemma Gaussian_positive x mu sig : sig <> 0 -> 0 < Gaussian x mu sig.
Proof.
  intros Hs. unfold Gaussian. apply Rdiv_lt_0_compat; [apply exp_pos|]. apply sqrt_lt_R0. pose proof PI_RGT_0.
  assert (0 < sig ^ 2) by (apply pow2_gt_0; exact Hs). nra.
Qed.
Lemma Gaussian_symmetric d mu sig : Gaussian (mu + d) mu sig = Gaussian (mu - d) mu sig.
Proof. unfold Gaussian. f_equal. f_equal. f_equal. f_equal. ring. Qed.
Lemma Gaussian_decreasing x y mu sig : sig <> 0 -> Rabs (x - mu) < Rabs (y - mu) -> Gaussian y mu sig < Gaussian x mu sig.
Proof.
  intros Hs H. assert (H2 : 0 < sig ^ 2) by (apply pow2_gt_0; exact Hs). unfold Gaussian, Rdiv. apply Rmult_lt_compat_r.
  - apply Rinv_0_lt_compat. apply sqrt_lt_R0. pose proof PI_RGT_0. nra.
  - apply exp_increasing. apply Rmult_lt_compat_r; [apply Rinv_0_lt_compat; lra|]. apply Ropp_lt_contravar.
    rewrite <- (pow2_abs (x - mu)), <- (pow2_abs (y - mu)). pose proof (Rabs_pos (x - mu)). nra.
Qed.

(** ** BivariateGaussian *)
Lemma one_minus rho : Rabs rho < 1 -> 0 < 1 - rho ^ 2.
Proof. intros H. rewrite <- pow2_abs. pose proof (Rabs_pos rho). nra. Qed.

(** The density of [x] given [y], times that of [y]. *)
Lemma Bivariate_factor x y mx my sx sy rho : 0 < sx -> 0 < sy -> Rabs rho < 1 ->
  BivariateGaussian x y mx my sx sy rho =
  Gaussian y my sy * Gaussian x (mx + rho * sx / sy * (y - my)) (sx * sqrt (1 - rho ^ 2)).
Proof.
  intros Hx Hy Hr. pose proof (one_minus rho Hr) as Hq. pose proof PI_RGT_0 as Hpi. pose proof (sqrt_lt_R0 _ Hq) as Hw.
  unfold BivariateGaussian, Gaussian.
  set (w := sqrt (1 - rho ^ 2)) in *. assert (Hw2 : w ^ 2 = 1 - rho ^ 2) by (unfold w; apply pow2_sqrt; lra).
  unfold Rdiv at 3. unfold Rdiv at 2.
  replace (exp (- (y - my) ^ 2 / (2 * sy ^ 2)) / sqrt (2 * PI * sy ^ 2) * (exp (- (x - (mx + rho * sx / sy * (y - my))) ^ 2 / (2 * (sx * w) ^ 2)) / sqrt (2 * PI * (sx * w) ^ 2)))
    with ((exp (- (y - my) ^ 2 / (2 * sy ^ 2)) * exp (- (x - (mx + rho * sx / sy * (y - my))) ^ 2 / (2 * (sx * w) ^ 2))) / (sqrt (2 * PI * sy ^ 2) * sqrt (2 * PI * (sx * w) ^ 2))).
  - rewrite <- exp_plus. f_equal.
    + f_equal. replace ((sx * w) ^ 2) with (sx ^ 2 * (1 - rho ^ 2)) by (rewrite <- Hw2; ring). field. repeat split; lra.
    + rewrite (sqrt_mult (2 * PI) (sy ^ 2)) by (try lra; apply pow2_ge_0). rewrite (sqrt_mult (2 * PI) ((sx * w) ^ 2)) by (try lra; apply pow2_ge_0).
      rewrite !sqrt_pow2 by nra. replace (sqrt (2 * PI) * sy * (sqrt (2 * PI) * (sx * w))) with ((sqrt (2 * PI) * sqrt (2 * PI)) * sy * sx * w) by ring.
      rewrite sqrt_sqrt by lra. ring.
  - field. split; apply Rgt_not_eq; apply sqrt_lt_R0; (apply Rmult_lt_0_compat; [lra|apply pow_lt; first [assumption | apply Rmult_lt_0_compat; assumption]]).
Qed.

Lemma Bivariate_swap x y mx my sx sy rho : BivariateGaussian x y mx my sx sy rho = BivariateGaussian y x my mx sy sx rho.
Proof.
  unfold BivariateGaussian. f_equal; [f_equal; f_equal|ring]. unfold Rdiv. rewrite (Rmult_comm sx sy). ring.
Qed.
Theorem Bivariate_marginal_x y mx my sx sy rho : 0 < sx -> 0 < sy -> Rabs rho < 1 ->
  integrates_to (fun x => BivariateGaussian x y mx my sx sy rho) (Gaussian y my sy).
Proof.
  intros Hx Hy Hr. pose proof (sqrt_lt_R0 _ (one_minus rho Hr)) as Hw.
  apply (integrates_ext (fun x => Gaussian y my sy * Gaussian x (mx + rho * sx / sy * (y - my)) (sx * sqrt (1 - rho ^ 2)))).
  - intros x. symmetry. apply Bivariate_factor; assumption.
  - rewrite <- (Rmult_1_r (Gaussian y my sy)) at 1. apply integrates_scal. apply Gaussian_normalised_pos. nra.
Qed.
Theorem Bivariate_marginal_y x mx my sx sy rho : 0 < sx -> 0 < sy -> Rabs rho < 1 ->
  integrates_to (fun y => BivariateGaussian x y mx my sx sy rho) (Gaussian x mx sx).
Proof.
  intros Hx Hy Hr. apply (integrates_ext (fun y => BivariateGaussian y x my mx sy sx rho)); [intros y; apply Bivariate_swap|].
  apply Bivariate_marginal_x; assumption.
Qed.
Theorem Bivariate_independent x y mx my sx sy : 0 < sx -> 0 < sy ->
  BivariateGaussian x y mx my sx sy 0 = Gaussian x mx sx * Gaussian y my sy.
Proof.
  intros Hx Hy. rewrite Bivariate_factor by (try assumption; rewrite Rabs_R0; lra).
  replace (1 - 0 ^ 2) with 1 by ring. rewrite sqrt_1, Rmult_1_r. replace (mx + 0 * sx / sy * (y - my)) with mx by (field; lra). ring.
Qed.
Theorem Bivariate_positive x y mx my sx sy rho : 0 < sx -> 0 < sy -> Rabs rho < 1 -> 0 < BivariateGaussian x y mx my sx sy rho.
Proof.
  intros Hx Hy Hr. rewrite Bivariate_factor by assumption. pose proof (sqrt_lt_R0 _ (one_minus rho Hr)) as Hw.
  apply Rmult_lt_0_compat; apply Gaussian_positive; [lra|]. apply Rgt_not_eq. apply Rmult_lt_0_compat; assumption.
Qed.

(** ** Exp *)
Lemma Exp_RInt l b : is_RInt (fun x => Exp x l) 0 b (1 - exp (- l * b)).
Proof.
  replace (1 - exp (- l * b)) with (minus (- exp (- l * b)) (- exp (- l * 0))).
  - apply (is_RInt_derive (V := R_CompleteNormedModule) (fun x => - exp (- l * x)) (fun x => Exp x l)).
    + intros x _. unfold Exp. auto_derive; [exact Logic.I|ring].
    + intros x _. apply (ex_derive_continuous (V := R_NormedModule)). unfold Exp. auto_derive. exact Logic.I.
  - rewrite Rmult_0_r, exp_0. unfold minus, plus, opp; simpl. ring.
Qed.
Theorem Exp_normalised l : 0 < l -> integrates_from (fun x => Exp x l) 0 1.
Proof.
  intros Hl. split; [intros b; eexists; apply Exp_RInt|]. intros eps He. exists (/ (l * eps)). intros b Hb.
  rewrite (is_RInt_unique _ _ _ _ (Exp_RInt l b)). replace (1 - exp (- l * b) - 1) with (- exp (- l * b)) by ring.
  rewrite Rabs_Ropp, Rabs_right by (left; apply exp_pos). replace (- l * b) with (- (l * b)) by ring. rewrite exp_Ropp.
  rewrite <- (Rinv_inv eps). pose proof (Rinv_0_lt_compat _ He) as Hi.
  assert (Hlb : / eps < l * b).
  { apply Rmult_lt_reg_l with (/ l); [apply Rinv_0_lt_compat; exact Hl|]. rewrite <- Rmult_assoc, Rinv_l, Rmult_1_l by lra. rewrite <- Rinv_mult. exact Hb. }
  apply Rinv_lt_contravar; [apply Rmult_lt_0_compat; [exact Hi|apply exp_pos]|].
  apply Rlt_trans with (1 + l * b); [lra|]. apply exp_ineq1. lra.
Qed.
Lemma Exp_nonneg x l : 0 <= l -> 0 <= Exp x l.
Proof. intros H. unfold Exp. apply Rmult_le_pos; [exact H|left; apply exp_pos]. Qed.
