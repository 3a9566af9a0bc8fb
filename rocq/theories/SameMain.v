(** * SameMain: models that mean the same. *)
From Coq Require Import Reals Lra Lia Permutation.
From Coquelicot Require Import Coquelicot.
From Verif Require Import PyBase PyFacts Expr Model ModelSpec ModelFacts ExprR Jacobian JacAnalysis NumPy NumFacts Objective ObjSpec Minimizer MinSpec Fit FitSpec Cast ArrModel ArrSpec ConModel ArrObj EndSpec EndMain SameSpec.
Local Open Scope R_scope.

Lemma means_unique ord es m sol inp w : model_of ord es m -> means es sol -> solution Ralg (comps es) inp w -> forall s, sol inp s = w s.
Proof.
  intros (Ho & Hd & _ & Hself & _ & _ & Hi) Hsol Hw s.
  assert (Hd' : is_dict (comps (V:=R) es)) by (unfold is_dict; rewrite dkeys_comps; exact Hd).
  destruct (in_dec eq_dec s (dkeys (comps (V:=R) es))) as [Hk|Hk].
  - assert (HiR : init_model ord (comps (V:=R) es) = Ok (mcast m)) by (rewrite <- (icast_comps (V:=res nd)); apply init_icast; exact Hi).
    destruct (solution_exists Ralg ord (comps es) (mcast m) inp Ho Hd' Hself HiR) as (v & _ & Hu). rewrite (Hu _ (Hsol inp) s Hk), (Hu _ Hw s Hk). reflexivity.
  - rewrite (proj2 (Hsol inp) s Hk), (proj2 Hw s Hk). reflexivity.
Qed.
Lemma in_comps_R es k e : In (k, CExpr e) (comps (V:=R) es) <-> In (k, e) es.
Proof. unfold comps. rewrite in_map_iff. split; [intros ((k', e') & E & H); injection E as <- <-; exact H|intros H; exists (k, e); auto]. Qed.
Lemma eval_set env y r e : env y = r -> eval Ralg (set_input env y r) e = eval Ralg env e.
Proof. intros H. apply eval_ext. intros s _. unfold set_input. destruct (eq_dec s y) as [->|]; [symmetry; exact H|reflexivity]. Qed.
Lemma key_val {A} (d : dict sym A) k : In k (dkeys d) -> exists a, In (k, a) d.
Proof. unfold dkeys. rewrite in_map_iff. intros ((k', a) & <- & H). exists a. exact H. Qed.

(** The other form of the model has the same values. *)
Lemma rewritten_sol ord es es' m m' sol sol' : model_of ord es m -> model_of ord es' m' -> means es sol -> means es' sol' -> rewritten es es' -> forall inp v, sol' inp v = sol inp v.
Proof.
  intros Hm Hm' Hsol Hsol' (Hk & He) inp. apply (means_unique ord es' m' sol' inp); [exact Hm'|exact Hsol'|]. destruct (Hsol inp) as (F1 & F2). split.
  - intros k e' Hin. apply in_comps_R in Hin. assert (Hkk : In k (dkeys es)) by (rewrite <- Hk; apply in_map_iff; exists (k, e'); auto).
    destruct (key_val es k Hkk) as (e & Hine). rewrite (He k e e' Hine Hin). apply F1. apply in_comps_R. exact Hine.
  - intros s Hs. apply F2. rewrite dkeys_comps in *. rewrite <- Hk. exact Hs.
Qed.
Lemma written_out_sol ord es es' m m' sol sol' y : model_of ord es m -> model_of ord es' m' -> means es sol -> means es' sol' -> written_out y es es' ->
  forall inp v, v <> y -> sol' inp v = sol inp v.
Proof.
  intros Hm Hm' Hsol Hsol' (ey & Hy & Hk & He) inp v Hv. destruct (Hsol inp) as (F1 & F2).
  set (w := fun s => if eq_dec s y then inp y else sol inp s).
  assert (Hw : solution Ralg (comps es') inp w).
  { split.
    - intros k e' Hin. apply in_comps_R in Hin. assert (Hk' : In k (dkeys es')) by (apply in_map_iff; exists (k, e'); auto). apply Hk in Hk' as (Hk1 & Hky).
      destruct (key_val es k Hk1) as (e & Hine). destruct (He k e e' Hine Hin) as (Hnm & Hev). unfold w at 1. destruct (eq_dec k y); [contradiction|].
      transitivity (eval Ralg (sol inp) e').
      + rewrite Hev, eval_set by (apply F1, in_comps_R; exact Hy). apply F1, in_comps_R. exact Hine.
      + apply eval_ext. intros s Hs. unfold w. destruct (eq_dec s y) as [->|]; [|reflexivity]. exfalso. apply Hnm, occs_mentions. exact Hs.
    - intros s Hs. rewrite dkeys_comps in Hs. unfold w. destruct (eq_dec s y) as [->|Hn]; [reflexivity|]. apply F2. rewrite dkeys_comps. intros H. apply Hs, Hk. auto. }
  rewrite (means_unique ord es' m' sol' inp w Hm' Hsol' Hw v). unfold w. destruct (eq_dec v y); [contradiction|reflexivity].
Qed.
Lemma constant_sol ord es es' m m' sol sol' p r : model_of ord es m -> model_of ord es' m' -> means es sol -> means es' sol' -> constant_for p r es es' ->
  forall inp v, inp p = r -> sol' inp v = sol inp v.
Proof.
  intros Hm Hm' Hsol Hsol' (Hp & Hk & He) inp v Hpr. apply (means_unique ord es' m' sol' inp); [exact Hm'|exact Hsol'|]. destruct (Hsol inp) as (F1 & F2). split.
  - intros k e' Hin. apply in_comps_R in Hin. assert (Hkk : In k (dkeys es)) by (rewrite <- Hk; apply in_map_iff; exists (k, e'); auto).
    destruct (key_val es k Hkk) as (e & Hine). destruct (He k e e' Hine Hin) as (_ & Hev). rewrite Hev, eval_set; [apply F1, in_comps_R; exact Hine|].
    rewrite F2 by (rewrite dkeys_comps; exact Hp). exact Hpr.
  - intros s Hs. apply F2. rewrite dkeys_comps in *. rewrite <- Hk. exact Hs.
Qed.

(** chi squared *)
Lemma same_chi2 h G m m' sol sol' Y S Y' S' : data_on_grid G m Y S -> m_dep m' = m_dep m -> (forall v, In v (m_dep m) -> Y' v = Y v /\ S' v = S v) -> same_predictions h G m sol sol' Y Y' ->
  forall theta, keeps_fixed h theta -> chi2_for sol' m' Y' S' theta = chi2_for sol m Y S theta.
Proof.
  intros (_ & HG & _) Hd HYS Hs theta Hth. unfold chi2_for. rewrite Hd. apply Rsum_ext. intros v Hv. destruct (HYS v Hv) as (-> & ->).
  destruct (Y v) as [y|] eqn:Ey; [|reflexivity]. destruct (S v) as [s|]; [|reflexivity]. apply Rsum_ext. intros i Hi. rewrite (proj1 (HG v y Hv Ey)) in Hi. rewrite (Hs theta Hth i v Hi Hv). reflexivity.
Qed.
Lemma pv_free h ps ps' x : free_of_list h ps' = free_of_list h ps -> parameter_value h ps' x = parameter_value h ps x.
Proof. intros H. unfold parameter_value. unfold free_of_list in H. rewrite H. reflexivity. Qed.
Lemma pv_keeps h ps x : keeps_fixed h (parameter_value h ps x).
Proof. intros p Hp. unfold parameter_value. rewrite Hp. reflexivity. Qed.
Lemma allowed_same h m m' theta : keeps_fixed h theta -> free_of_list h (m_params m') = free_of_list h (m_params m) -> allowed h m' theta <-> allowed h m theta.
Proof.
  assert (H : forall a b, keeps_fixed h theta -> free_of_list h (m_params b) = free_of_list h (m_params a) -> allowed h a theta -> allowed h b theta).
  { intros a b Hth Hf Ha p Hp. destruct (p_fixed (h p)) eqn:E; [exact (Hth p E)|]. assert (Hin : In p (free_of_list h (m_params b))) by (apply filter_In; rewrite E; auto).
    rewrite Hf in Hin. apply filter_In in Hin as (Hin & _). specialize (Ha p Hin). rewrite E in Ha. exact Ha. }
  intros Hth Hf. split; apply H; auto.
Qed.
