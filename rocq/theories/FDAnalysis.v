(** * FDAnalysis: the six point stencil is exact up to degree 6 and of sixth order. *)
From Coq Require Import Reals Lra.
From Coquelicot Require Import Coquelicot.
From Verif Require Import PyBase NumPy FiniteDiff FDSpec.
Local Open Scope R_scope.

Lemma central6_ext f f' x h : (forall t, f t = f' t) -> central6 f x h = central6 f' x h.
Proof. intros E. unfold central6. rewrite !E. reflexivity. Qed.

(** A polynomial of degree at most 6 *)
Lemma central6_poly (a : nat -> R) x h : h <> 0 ->
  central6 (fun t => sum_f_R0 (fun m => a m * t ^ m) 6) x h =
  sum_f_R0 (fun m => INR (S m) * a (S m) * x ^ m) 5.
Proof. intros Hh. unfold central6. cbn [sum_f_R0 pow]. simpl INR. field. exact Hh. Qed.

Lemma poly_is_derive (a : nat -> R) x :
  is_derive (fun t => sum_f_R0 (fun m => a m * t ^ m) 6) x (sum_f_R0 (fun m => INR (S m) * a (S m) * x ^ m) 5).
Proof. cbn [sum_f_R0 pow]. auto_derive; [exact I|]. simpl INR. ring. Qed.

(** Taylor on both sides with a bound on the remainder. *)
Lemma taylor_right f n x t M : 0 < t ->
  (forall y, x <= y <= x + t -> forall k, (k <= S n)%nat -> ex_derive_n f k y) ->
  (forall y, x <= y <= x + t -> Rabs (Derive_n f (S n) y) <= M) ->
  Rabs (f (x + t) - sum_f_R0 (fun m => t ^ m / INR (Factorial.fact m) * Derive_n f m x) n)
    <= M * t ^ (S n) / INR (Factorial.fact (S n)).
Proof.
  intros Ht Hd HM. destruct (Taylor_Lagrange f n x (x + t)) as (z & Hz & E); [lra|exact Hd|].
  replace (x + t - x) with t in E by ring. rewrite E.
  match goal with |- Rabs (?a + ?b - ?a) <= _ => replace (a + b - a) with b by ring end.
  assert (Hp : 0 < t ^ S n / INR (Factorial.fact (S n))) by (apply Rdiv_lt_0_compat; [apply pow_lt; exact Ht|apply INR_fact_lt_0]).
  rewrite Rabs_mult, (Rabs_pos_eq (t ^ S n / _)) by lra.
  replace (M * t ^ S n / INR (Factorial.fact (S n))) with (t ^ S n / INR (Factorial.fact (S n)) * M) by (unfold Rdiv; ring).
  apply Rmult_le_compat_l; [lra|]. apply HM. lra.
Qed.

Lemma taylor_left f n x t M : 0 < t ->
  (forall y, x - t - 1 < y < x + t + 1 -> forall k, (k <= S n)%nat -> ex_derive_n f k y) ->
  (forall y, x - t <= y <= x -> Rabs (Derive_n f (S n) y) <= M) ->
  Rabs (f (x - t) - sum_f_R0 (fun m => (- t) ^ m / INR (Factorial.fact m) * Derive_n f m x) n)
    <= M * t ^ (S n) / INR (Factorial.fact (S n)).
Proof.
  intros Ht Hd HM.
  assert (Hloc : forall k y, (k <= S n)%nat -> - x - t - 1 < y < - x + t + 1 ->
     Derive_n (fun u => f (- u)) k y = (-1) ^ k * Derive_n f k (- y) /\ ex_derive_n (fun u => f (- u)) k y).
  { intros k y Hk Hy.
    assert (Hl : locally (- y) (fun z => forall j, (j <= k)%nat -> ex_derive_n f j z)).
    { assert (Ho : locally (- y) (fun z => x - t - 1 < z < x + t + 1)).
      { apply (open_and (fun z => x - t - 1 < z) (fun z => z < x + t + 1) (open_gt _) (open_lt _)). lra. }
      revert Ho. apply filter_imp. intros z Hz j Hj. apply Hd; [exact Hz|lia]. }
    split; [apply Derive_n_comp_opp; exact Hl|apply ex_derive_n_comp_opp; exact Hl]. }
  pose proof (taylor_right (fun u => f (- u)) n (- x) t M Ht) as H.
  replace (f (x - t)) with (f (- (- x + t))) by (f_equal; ring).
  assert (E : sum_f_R0 (fun m => (- t) ^ m / INR (Factorial.fact m) * Derive_n f m x) n =
              sum_f_R0 (fun m => t ^ m / INR (Factorial.fact m) * Derive_n (fun u => f (- u)) m (- x)) n).
  { apply sum_eq. intros m Hm. destruct (Hloc m (- x)) as [-> _]; [lia|lra|]. rewrite Ropp_involutive.
    replace (- t) with (-1 * t) by ring. rewrite Rpow_mult_distr. unfold Rdiv. ring. }
  rewrite E. apply H.
  - intros y Hy k Hk. apply Hloc; [exact Hk|lra].
  - intros y Hy. destruct (Hloc (S n) y) as [-> _]; [lia|lra|]. rewrite Rabs_mult, pow_1_abs, Rmult_1_l. apply HM. lra.
Qed.

(** One order: odd part of f up to the sixth derivative. *)
Lemma odd_part f x t M : t <> 0 ->
  (forall y, x - Rabs t - 1 < y < x + Rabs t + 1 -> forall k, (k <= 7)%nat -> ex_derive_n f k y) ->
  (forall y, x - Rabs t <= y <= x + Rabs t -> Rabs (Derive_n f 7 y) <= M) ->
  Rabs ((f (x + t) - f (x - t)) / (2 * t) - (Derive f x + t ^ 2 / 6 * Derive_n f 3 x + t ^ 4 / 120 * Derive_n f 5 x))
    <= M * t ^ 6 / 5040.
Proof.
  assert (Hpos : forall t, 0 < t ->
    (forall y, x - t - 1 < y < x + t + 1 -> forall k, (k <= 7)%nat -> ex_derive_n f k y) ->
    (forall y, x - t <= y <= x + t -> Rabs (Derive_n f 7 y) <= M) ->
    Rabs ((f (x + t) - f (x - t)) / (2 * t) - (Derive f x + t ^ 2 / 6 * Derive_n f 3 x + t ^ 4 / 120 * Derive_n f 5 x))
      <= M * t ^ 6 / 5040).
  { clear t. intros t Ht Hd HM.
    assert (H1 := taylor_right f 6 x t M Ht (fun y Hy => Hd y ltac:(lra)) (fun y Hy => HM y ltac:(lra))).
    assert (H2 := taylor_left f 6 x t M Ht Hd (fun y Hy => HM y ltac:(lra))).
    set (A := f (x + t)) in *. set (B := f (x - t)) in *.
    match type of H1 with Rabs (A - ?s) <= _ => set (S1 := s) in * end.
    match type of H2 with Rabs (B - ?s) <= _ => set (S2 := s) in * end.
    assert (ES : S1 - S2 = 2 * t * (Derive f x + t ^ 2 / 6 * Derive_n f 3 x + t ^ 4 / 120 * Derive_n f 5 x)).
    { unfold S1, S2. cbn [sum_f_R0]. change (Derive_n f 1 x) with (Derive f x). simpl Factorial.fact. simpl INR. simpl pow. field. }
    assert (EF : M * t ^ 7 / INR (Factorial.fact 7) = M * t ^ 7 / 5040) by (f_equal; f_equal; rewrite INR_IZR_INZ; reflexivity).
    rewrite EF in H1, H2.
    replace ((A - B) / (2 * t) - (Derive f x + t ^ 2 / 6 * Derive_n f 3 x + t ^ 4 / 120 * Derive_n f 5 x))
      with (((A - S1) - (B - S2)) / (2 * t)).
    2:{ replace (A - S1 - (B - S2)) with (A - B - (S1 - S2)) by ring. rewrite ES. field. lra. }
    unfold Rdiv at 1. rewrite Rabs_mult, (Rabs_pos_eq (/ (2 * t))) by (apply Rlt_le, Rinv_0_lt_compat; lra).
    assert (H3 : Rabs ((A - S1) - (B - S2)) <= 2 * (M * t ^ 7 / 5040)).
    { unfold Rminus at 1. eapply Rle_trans; [apply Rabs_triang|]. rewrite Rabs_Ropp. lra. }
    replace (M * t ^ 6 / 5040) with (2 * (M * t ^ 7 / 5040) * / (2 * t)) by (field; lra).
    apply Rmult_le_compat_r; [apply Rlt_le, Rinv_0_lt_compat; lra|exact H3]. }
  intros Hn Hd HM. destruct (Rtotal_order t 0) as [Hlt|[E|Hgt]].
  - assert (Ea : Rabs t = - t) by (apply Rabs_left; exact Hlt). rewrite Ea in *.
    specialize (Hpos (- t) ltac:(lra) Hd HM).
    replace ((f (x + - t) - f (x - - t)) / (2 * - t)) with ((f (x + t) - f (x - t)) / (2 * t)) in Hpos.
    2:{ replace (x + - t) with (x - t) by ring. replace (x - - t) with (x + t) by ring. field. exact Hn. }
    replace ((- t) ^ 2) with (t ^ 2) in Hpos by ring. replace ((- t) ^ 4) with (t ^ 4) in Hpos by ring.
    replace ((- t) ^ 6) with (t ^ 6) in Hpos by ring. exact Hpos.
  - contradiction.
  - assert (Ea : Rabs t = t) by (apply Rabs_right; lra). rewrite Ea in *. apply Hpos; auto.
Qed.

(** The error of the stencil. *)
Lemma central6_error f x h M : h <> 0 ->
  (forall y, x - 3 * Rabs h - 1 < y < x + 3 * Rabs h + 1 -> forall k, (k <= 7)%nat -> ex_derive_n f k y) ->
  (forall y, x - 3 * Rabs h <= y <= x + 3 * Rabs h -> Rabs (Derive_n f 7 y) <= M) ->
  Rabs (central6 f x h - Derive f x) <= 113 / 5040 * M * h ^ 6.
Proof.
  intros Hh Hd HM. pose proof (Rabs_pos h) as Hp.
  assert (R2 : Rabs (2 * h) = 2 * Rabs h) by (rewrite Rabs_mult, (Rabs_pos_eq 2) by lra; reflexivity).
  assert (R3 : Rabs (3 * h) = 3 * Rabs h) by (rewrite Rabs_mult, (Rabs_pos_eq 3) by lra; reflexivity).
  pose proof (odd_part f x h M Hh (fun y Hy => Hd y ltac:(lra)) (fun y Hy => HM y ltac:(lra))) as H1.
  assert (H2n : 2 * h <> 0) by (intros E; apply Hh; lra). assert (H3n : 3 * h <> 0) by (intros E; apply Hh; lra).
  assert (H2 : Rabs ((f (x + 2 * h) - f (x - 2 * h)) / (2 * (2 * h)) - (Derive f x + (2 * h) ^ 2 / 6 * Derive_n f 3 x + (2 * h) ^ 4 / 120 * Derive_n f 5 x)) <= M * (2 * h) ^ 6 / 5040).
  { apply odd_part; [exact H2n|intros y Hy; apply Hd; lra|intros y Hy; apply HM; lra]. }
  assert (H3 : Rabs ((f (x + 3 * h) - f (x - 3 * h)) / (2 * (3 * h)) - (Derive f x + (3 * h) ^ 2 / 6 * Derive_n f 3 x + (3 * h) ^ 4 / 120 * Derive_n f 5 x)) <= M * (3 * h) ^ 6 / 5040).
  { apply odd_part; [exact H3n|intros y Hy; apply Hd; lra|intros y Hy; apply HM; lra]. }
  unfold central6.
  set (q1 := (f (x + h) - f (x - h)) / (2 * h)) in *. set (q2 := (f (x + 2 * h) - f (x - 2 * h)) / (2 * (2 * h))) in *.
  set (q3 := (f (x + 3 * h) - f (x - 3 * h)) / (2 * (3 * h))) in *.
  set (e1 := q1 - _) in H1. set (e2 := q2 - _) in H2. set (e3 := q3 - _) in H3.
  assert (E : 3 / 2 * q1 - 3 / 5 * q2 + 1 / 10 * q3 - Derive f x = 3 / 2 * e1 + (- (3 / 5) * e2 + 1 / 10 * e3)).
  { unfold e1, e2, e3. field. }
  rewrite E.
  assert (HM0 : 0 <= M) by (eapply Rle_trans; [apply Rabs_pos|apply (HM x); lra]).
  assert (Hh6 : 0 <= M * h ^ 6).
  { apply Rmult_le_pos; [exact HM0|]. replace (h ^ 6) with ((h ^ 3) ^ 2) by ring. apply pow2_ge_0. }
  eapply Rle_trans; [apply Rabs_triang|]. eapply Rle_trans; [apply Rplus_le_compat_l, Rabs_triang|].
  rewrite !Rabs_mult, Rabs_Ropp, !(Rabs_pos_eq (_ / _)) by lra.
  replace (M * (2 * h) ^ 6 / 5040) with (64 / 5040 * (M * h ^ 6)) in H2 by field.
  replace (M * (3 * h) ^ 6 / 5040) with (729 / 5040 * (M * h ^ 6)) in H3 by field.
  replace (M * h ^ 6 / 5040) with (/ 5040 * (M * h ^ 6)) in H1 by field.
  replace (113 / 5040 * M * h ^ 6) with (113 / 5040 * (M * h ^ 6)) by ring.
  set (K := M * h ^ 6) in *. lra.
Qed.
