(** * Twice: functions of two variables with equal mixed second derivatives. *)
From Coq Require Import Reals Lra.
From Coquelicot Require Import Coquelicot.
From Verif Require Import PyBase PyFacts Expr Model ModelFacts ExprR Jacobian JacAnalysis.
Local Open Scope R_scope.

Definition twice (f : R -> R -> R) (x y : R) : Prop :=
  exists (ga gb : R -> R -> R) (fab : R),
    locally_2d (fun t u => is_derive (fun t => f t u) t (ga t u) /\ is_derive (fun u => f t u) u (gb t u)) x y /\
    is_derive (fun u => ga x u) y fab /\ is_derive (fun t => gb t y) x fab.

Lemma twice_ext f g x y : (forall t u, f t u = g t u) -> twice f x y -> twice g x y.
Proof.
  intros He (ga & gb & fab & H & H1 & H2). exists ga, gb, fab. split; [|split; assumption].
  eapply locally_2d_impl; [|exact H]. apply locally_2d_forall. intros t u [Ha Hb].
  split; (eapply is_derive_ext; [|eassumption]); intros; apply He.
Qed.
Lemma twice_const c x y : twice (fun _ _ => c) x y.
Proof.
  exists (fun _ _ => 0), (fun _ _ => 0), 0. split; [|split; apply der_const].
  apply locally_2d_forall. intros; split; apply der_const.
Qed.
Lemma twice_fst x y : twice (fun t _ => t) x y.
Proof.
  exists (fun _ _ => 1), (fun _ _ => 0), 0. split; [|split; apply der_const].
  apply locally_2d_forall. intros; split; [apply (is_derive_id (K:=R_AbsRing))|apply der_const].
Qed.
Lemma twice_snd x y : twice (fun _ u => u) x y.
Proof.
  exists (fun _ _ => 0), (fun _ _ => 1), 0. split; [|split; apply der_const].
  apply locally_2d_forall. intros; split; [apply der_const|apply (is_derive_id (K:=R_AbsRing))].
Qed.
Lemma twice_plus f g x y : twice f x y -> twice g x y -> twice (fun t u => f t u + g t u) x y.
Proof.
  intros (fa & fb & fab & F & F1 & F2) (ga & gb & gab & G & G1 & G2).
  exists (fun t u => fa t u + ga t u), (fun t u => fb t u + gb t u), (fab + gab). split; [|split; apply der_plus; assumption].
  pose proof (locally_2d_and _ _ _ _ F G) as FG.
  eapply locally_2d_impl; [|exact FG]. apply locally_2d_forall. intros t u [[Ha Hb] [Ka Kb]].
  split; apply der_plus; assumption.
Qed.
Lemma twice_mult f g x y : twice f x y -> twice g x y -> twice (fun t u => f t u * g t u) x y.
Proof.
  intros (fa & fb & fab & F & F1 & F2) (ga & gb & gab & G & G1 & G2).
  pose proof (locally_2d_and _ _ _ _ F G) as FG. pose proof (locally_2d_singleton _ _ _ FG) as [[Fa Fb] [Ga Gb]].
  exists (fun t u => fa t u * g t u + f t u * ga t u), (fun t u => fb t u * g t u + f t u * gb t u),
         ((fab * g x y + fa x y * gb x y) + (fb x y * ga x y + f x y * gab)).
  split; [|split].
  - eapply locally_2d_impl; [|exact FG]. apply locally_2d_forall. intros t u [[Ha Hb] [Ka Kb]]. split.
    + apply (der_mult (fun t => f t u) (fun t => g t u)); assumption.
    + apply (der_mult (fun u => f t u) (fun u => g t u)); assumption.
  - apply (der_plus (fun u => fa x u * g x u) (fun u => f x u * ga x u)).
    + apply (der_mult (fun u => fa x u) (fun u => g x u)); assumption.
    + apply (der_mult (fun u => f x u) (fun u => ga x u)); assumption.
  - replace ((fab * g x y + fa x y * gb x y) + (fb x y * ga x y + f x y * gab))
      with ((fab * g x y + fb x y * ga x y) + (fa x y * gb x y + f x y * gab)) by ring.
    apply (der_plus (fun t => fb t y * g t y) (fun t => f t y * gb t y)).
    + apply (der_mult (fun t => fb t y) (fun t => g t y)); assumption.
    + apply (der_mult (fun t => f t y) (fun t => gb t y)); assumption.
Qed.
Lemma twice_comp (phi dphi : R -> R) ddphi f x y : twice f x y ->
  locally_2d (fun t u => is_derive phi (f t u) (dphi (f t u))) x y -> is_derive dphi (f x y) ddphi ->
  twice (fun t u => phi (f t u)) x y.
Proof.
  intros (fa & fb & fab & F & F1 & F2) Hphi Hd.
  pose proof (locally_2d_and _ _ _ _ F Hphi) as FG. pose proof (locally_2d_singleton _ _ _ FG) as [[Fa Fb] Hp0].
  exists (fun t u => fa t u * dphi (f t u)), (fun t u => fb t u * dphi (f t u)),
         (fab * dphi (f x y) + fa x y * (fb x y * ddphi)).
  split; [|split].
  - eapply locally_2d_impl; [|exact FG]. apply locally_2d_forall. intros t u [[Ha Hb] Hk]. split.
    + apply (der_comp phi (fun t => f t u)); assumption.
    + apply (der_comp phi (fun u => f t u)); assumption.
  - apply (der_mult (fun u => fa x u) (fun u => dphi (f x u))); [assumption|].
    apply (der_comp dphi (fun u => f x u)); assumption.
  - replace (fa x y * (fb x y * ddphi)) with (fb x y * (fa x y * ddphi)) by ring.
    apply (der_mult (fun t => fb t y) (fun t => dphi (f t y))); [assumption|].
    apply (der_comp dphi (fun t => f t y)); assumption.
Qed.

Lemma der_inv x : x <> 0 -> is_derive Rinv x (- / x ^ 2).
Proof.
  intros Hx. pose proof (is_derive_inv (fun t => t) x 1 (is_derive_id (K:=R_AbsRing) x) Hx) as H.
  replace (- / x ^ 2) with (- (1) / x ^ 2); [exact H|]. field; exact Hx.
Qed.
Lemma der_inv2 x : x <> 0 -> exists d, is_derive (fun z => - / z ^ 2) x d.
Proof.
  intros Hx. exists (2 / x ^ 3). auto_derive; [|field; exact Hx].
  intros H. apply Hx. nra.
Qed.

Lemma eval_twice (E : R -> R -> sym -> R) e x y :
  (forall s, In s (occs e) -> twice (fun t u => E t u s) x y) ->
  locally_2d (fun t u => defined (E t u) e) x y -> twice (fun t u => eval Ralg (E t u) e) x y.
Proof.
  induction e as [z|s|a IHa b IHb|a IHa b IHb|a IHa n|a IHa|f a IHa]; simpl; intros Hs Hd.
  - apply twice_const.
  - apply Hs; auto.
  - apply twice_plus.
    + apply IHa; [intros; apply Hs, in_or_app; auto|]. eapply locally_2d_impl; [|exact Hd]. apply locally_2d_forall. tauto.
    + apply IHb; [intros; apply Hs, in_or_app; auto|]. eapply locally_2d_impl; [|exact Hd]. apply locally_2d_forall. tauto.
  - apply twice_mult.
    + apply IHa; [intros; apply Hs, in_or_app; auto|]. eapply locally_2d_impl; [|exact Hd]. apply locally_2d_forall. tauto.
    + apply IHb; [intros; apply Hs, in_or_app; auto|]. eapply locally_2d_impl; [|exact Hd]. apply locally_2d_forall. tauto.
  - assert (Ha : twice (fun t u => eval Ralg (E t u) a) x y) by (apply IHa; assumption).
    induction n as [|n IHn]; simpl; [apply twice_const|]. apply twice_mult; assumption.
  - assert (Ha : twice (fun t u => eval Ralg (E t u) a) x y).
    { apply IHa; [assumption|]. eapply locally_2d_impl; [|exact Hd]. apply locally_2d_forall. tauto. }
    destruct (der_inv2 (eval Ralg (E x y) a)) as (d2 & Hd2); [apply (locally_2d_singleton _ _ _ Hd)|].
    apply (twice_comp Rinv (fun z => - / z ^ 2) d2); [exact Ha| |exact Hd2].
    eapply locally_2d_impl; [|exact Hd]. apply locally_2d_forall. intros t u [_ Hn]. apply der_inv; exact Hn.
  - assert (Ha : twice (fun t u => eval Ralg (E t u) a) x y).
    { apply IHa; [assumption|]. eapply locally_2d_impl; [|exact Hd]. apply locally_2d_forall. tauto. }
    destruct f.
    + apply (twice_comp exp exp (exp (eval Ralg (E x y) a))); [exact Ha| |apply is_derive_exp].
      apply locally_2d_forall. intros; apply is_derive_exp.
    + apply (twice_comp ln Rinv (- / (eval Ralg (E x y) a) ^ 2)); [exact Ha| |].
      * eapply locally_2d_impl; [|exact Hd]. apply locally_2d_forall. intros t u [_ Hn]. apply is_derive_ln; exact Hn.
      * apply der_inv. pose proof (locally_2d_singleton _ _ _ Hd) as [_ H]. lra.
    + apply (twice_comp sin cos (- sin (eval Ralg (E x y) a))); [exact Ha| |apply is_derive_cos].
      apply locally_2d_forall. intros; apply is_derive_sin.
    + apply (twice_comp cos (fun z => - sin z) (- cos (eval Ralg (E x y) a))); [exact Ha| |].
      * apply locally_2d_forall. intros; apply is_derive_cos.
      * apply (is_derive_opp sin). apply is_derive_sin.
Qed.

(** Equality of the mixed derivatives. *)
Lemma twice_schwarz f x y d1 d2 : twice f x y ->
  is_derive (fun u => Derive (fun t => f t u) x) y d1 -> is_derive (fun t => Derive (fun u => f t u) y) x d2 -> d1 = d2.
Proof.
  intros (ga & gb & fab & F & F1 & F2) H1 H2.
  assert (E1 : is_derive (fun u => Derive (fun t => f t u) x) y fab).
  { eapply is_derive_ext_loc; [|exact F1]. apply locally_2d_1d_const_x in F.
    eapply filter_imp; [|exact F]. intros u [Hu _]. symmetry. apply is_derive_unique; exact Hu. }
  assert (E2 : is_derive (fun t => Derive (fun u => f t u) y) x fab).
  { eapply is_derive_ext_loc; [|exact F2]. apply locally_2d_1d_const_y in F.
    eapply filter_imp; [|exact F]. intros t [_ Ht]. symmetry. apply is_derive_unique; exact Ht. }
  apply is_derive_unique in H1. apply is_derive_unique in H2. apply is_derive_unique in E1. apply is_derive_unique in E2. congruence.
Qed.
