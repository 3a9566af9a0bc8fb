(** * PointsMain: chi squared and the constraints do not depend on the order of the points. *)
From Coq Require Import Reals Lra Lia Permutation.
From Coquelicot Require Import Coquelicot.
From Verif Require Import PyBase PyFacts Expr Model ModelSpec ModelFacts ExprR Jacobian JacAnalysis NumPy NumFacts Objective ObjSpec Minimizer MinSpec Fit FitSpec Cast ArrModel ArrSpec ConModel ArrObj EndSpec EndMain PointsSpec.
Local Open Scope R_scope.

Lemma Rsum_perm l l' : Permutation l l' -> Rsum l = Rsum l'.
Proof. unfold Rsum. induction 1; cbn [fold_right] in *; try lra. Qed.

Section Points.
  Context (simp : expr -> expr) (ord1 ord2 : list sym -> list sym) (es : dict sym expr) (m : amodel) (sol : (sym -> R) -> sym -> R) (us : list user_con)
          (pi : list nat -> list nat) (G G' : list nat) (Y S Y' S' : sym -> option nd).
  Hypothesis (Hm : model_of ord1 es m) (Hsol : means es sol) (HG : data_on_grid G m Y S) (HG' : data_on_grid G' m Y' S') (Hsame : same_points pi G G' m us Y S Y' S').
  Let items := comps (V:=res nd) es.

  Lemma grid_size : List.length (indices G') = List.length (indices G).
  Proof using Hsame. destruct Hsame as (Hp & _). rewrite <- (map_length pi). apply Permutation_length. exact Hp. Qed.
  Lemma pi_in i : In i (indices G') -> In (pi i) (indices G).
  Proof using Hsame. intros Hi. destruct Hsame as (Hp & _). eapply Permutation_in; [exact Hp|]. apply in_map. exact Hi. Qed.
  Lemma pi_onto i : In i (indices G) -> exists j, In j (indices G') /\ pi j = i.
  Proof using Hsame. intros Hi. destruct Hsame as (Hp & _). apply (Permutation_in i (Permutation_sym Hp)) in Hi. apply in_map_iff in Hi as (j & <- & Hj). eauto. Qed.
  Lemma at_same_point theta i s : In i (indices G') -> In s (m_indep m ++ m_dep m) \/ (exists u, In u us /\ (mentions (uc_left u) s \/ mentions (uc_right u) s)) ->
    at_data Y' theta i s = at_data Y theta (pi i) s.
  Proof using Hsame.
    intros Hi Hs. destruct Hsame as (_ & Hv & _). specialize (Hv s i Hs Hi). unfold at_data. destruct (is_par s); [reflexivity|]. unfold entry_at in Hv.
    destruct (Y' s), (Y s); cbn in Hv; congruence.
  Qed.
  Lemma sol_same_point theta i v : In i (indices G') -> symbol_of items v -> sol (at_data Y' theta i) v = sol (at_data Y theta (pi i)) v.
  Proof using Hm Hsol Hsame.
    intros Hi Hv. apply (EndMain.sol_ext ord1 es m sol Hm Hsol); [|exact Hv]. intros s Hs. apply in_app_or in Hs as [Hs|Hs]; [apply at_same_point; [exact Hi|left; apply in_or_app; auto]|].
    unfold at_data. rewrite (ArrObj.Hps ord1 es m m (ArrObj.built_self ord1 es m Hm) s Hs). reflexivity.
  Qed.
  Lemma chi2_same theta : chi2_for sol m Y' S' theta = chi2_for sol m Y S theta.
  Proof using Hm Hsol HG HG' Hsame.
    unfold chi2_for. apply Rsum_ext. intros v Hv. destruct HG as (HGi & HGd & _). destruct HG' as (HGi' & HGd' & _). destruct Hsame as (Hp & HY & HS).
    destruct HGi as (_ & Hnz & _). 
    destruct (indices G') as [|i0 l0] eqn:Ei.
    { (* no points *)
      cbn in Hp. apply Permutation_nil in Hp.
      assert (A' : match Y' v, S' v with Some y, Some s => Rsum (map (fun i => ((sol (at_data Y' theta i) v - val y i) / elem s i) ^ 2) (indices (shp y))) | _, _ => 0 end = 0).
      { destruct (Y' v) as [y|] eqn:E; [|reflexivity]. destruct (S' v); [|reflexivity]. rewrite (proj1 (HGd' v y Hv E)), Ei. reflexivity. }
      rewrite A'. destruct (Y v) as [y|] eqn:E; [|reflexivity]. destruct (S v); [|reflexivity]. rewrite (proj1 (HGd v y Hv E)), Hp. reflexivity. }
    assert (H0 : In i0 (indices G')) by (rewrite Ei; left; reflexivity). rewrite <- Ei in *. clear Ei l0.
    assert (HYv : forall i, In i (indices G') -> entry_at (Y' v) i = entry_at (Y v) (pi i)) by (intros i Hi; apply HY; [left; apply in_or_app; auto|exact Hi]).
    assert (HSv : forall i, In i (indices G') -> entry_at (S' v) i = entry_at (S v) (pi i)) by (intros i Hi; apply HS; [exact Hv|exact Hi]).
    destruct (Y' v) as [y'|] eqn:Ey', (Y v) as [y|] eqn:Ey; try (specialize (HYv _ H0); discriminate HYv); [|reflexivity].
    destruct (HGd v y Hv Ey) as (Es & s & Ess & _). destruct (HGd' v y' Hv Ey') as (Es' & s' & Ess' & _). rewrite Ess, Ess' in HSv. rewrite Ess, Ess', Es, Es'.
    assert (Hsum : Rsum (map (fun i => ((sol (at_data Y theta i) v - val y i) / elem s i) ^ 2) (indices G)) = Rsum (map (fun i => ((sol (at_data Y theta i) v - val y i) / elem s i) ^ 2) (map pi (indices G'))))
      by (apply Rsum_perm, Permutation_map, Permutation_sym; exact Hp).
    rewrite Hsum, map_map. apply Rsum_ext. intros i Hi.
    assert (E1 : val y' i = val y (pi i)). { rewrite <- (elem_val y' i), <- (elem_val y (pi i)); [|rewrite Es; apply pi_in; exact Hi|rewrite Es'; exact Hi]. specialize (HYv i Hi). cbn in HYv. congruence. }
    assert (E2 : elem s' i = elem s (pi i)) by (specialize (HSv i Hi); cbn in HSv; congruence).
    rewrite E1, E2, sol_same_point; [reflexivity|exact Hi|]. left. exact (ArrObj.dep_key ord1 es m m (ArrObj.built_self ord1 es m Hm) v Hv).
  Qed.
  Lemma side_same theta i e : In i (indices G') -> (forall s, mentions e s -> exists u, In u us /\ (mentions (uc_left u) s \/ mentions (uc_right u) s)) ->
    eval Ralg (sol (at_data Y' theta i)) e = eval Ralg (sol (at_data Y theta (pi i))) e.
  Proof using Hm Hsol Hsame.
    intros Hi He. apply eval_ext. intros s Hs. assert (Ed : forall V, dkeys (comps (V:=V) es) = dkeys es) by (intros V; apply dkeys_comps). destruct (in_dec eq_dec s (dkeys es)) as [Hk|Hk].
    - apply sol_same_point; [exact Hi|left; unfold items; rewrite Ed; exact Hk].
    - destruct (Hsol (at_data Y' theta i)) as (_ & F2). destruct (Hsol (at_data Y theta (pi i))) as (_ & F2'). rewrite (F2 s), (F2' s) by (rewrite Ed; exact Hk). apply at_same_point; [exact Hi|right; apply He, occs_mentions; exact Hs].
  Qed.
  Lemma constraints_same theta : constraints_hold G' sol us Y' theta <-> constraints_hold G sol us Y theta.
  Proof using Hm Hsol Hsame.
    split; intros H u i Hu Hi.
    - destruct (pi_onto i Hi) as (j & Hj & <-). specialize (H u j Hu Hj). rewrite !side_same in H by (exact Hj || (intros s Hs; exists u; auto)). exact H.
    - rewrite !side_same by (exact Hi || (intros s Hs; exists u; auto)). apply H; [exact Hu|apply pi_in; exact Hi].
  Qed.
  Lemma defined_same theta : defined_for G es sol Y theta -> defined_for G' es sol Y' theta.
  Proof using Hm Hsol Hsame.
    intros H i k e Hi Hin. specialize (H (pi i) k e (pi_in i Hi) Hin). revert H. apply defined_ext. intros s Hs.
    symmetry. apply sol_same_point; [exact Hi|]. right. exists k, e. split; [|apply occs_mentions; exact Hs]. unfold items, comps. apply in_map_iff. exists (k, e). auto.
  Qed.
End Points.

(** ** The covariance matrix *)
Lemma scaled_inverse_same n r H H' C C' : (forall k l, (k < n)%nat -> (l < n)%nat -> mat H' k l = mat H k l) -> scaled_inverse n r H C -> scaled_inverse n r H' C' -> scaled_matrix n 1 (Some C) (Some C').
Proof.
  intros He (HC & B & HB & HCB) (HC' & B' & HB' & HCB'). split; [exact HC|]. split; [exact HC'|]. intros k l Hk Hl. rewrite (HCB' k l Hk Hl), (HCB k l Hk Hl).
  assert (HB2 : inverse_of n H' B) by (apply (FitCov.inverse_ext n H H' B He HB)).
  rewrite (FitCov.inverse_unique n H' B' B (proj2 (proj2 HB')) (proj1 (proj2 HB2)) k l Hk Hl). ring.
Qed.
Lemma singular_same n H H' : (forall k l, (k < n)%nat -> (l < n)%nat -> mat H' k l = mat H k l) -> singular n H -> singular n H'.
Proof. intros He Hs B HB. apply (Hs B). apply (FitCov.inverse_ext n H' H B); [intros; symmetry; apply He; assumption|exact HB]. Qed.
Definition cov_rule (n : nat) (r : R) (H K : nd) (cov : option nd) : Prop := (exists C, cov = Some C /\ scaled_inverse n r H C) \/ (singular n H /\ inverse_or_none n r K cov).
Lemma cov_same n r H K H' K' cov cov' : (forall k l, (k < n)%nat -> (l < n)%nat -> mat H' k l = mat H k l) -> (forall k l, (k < n)%nat -> (l < n)%nat -> mat K' k l = mat K k l) ->
  cov_rule n r H K cov -> cov_rule n r H' K' cov' -> scaled_matrix n 1 cov cov'.
Proof.
  intros HH HK.
  assert (HH' : forall k l, (k < n)%nat -> (l < n)%nat -> mat H k l = mat H' k l) by (intros; symmetry; auto). assert (HK' : forall k l, (k < n)%nat -> (l < n)%nat -> mat K k l = mat K' k l) by (intros; symmetry; auto).
  intros [(C & -> & HC)|(Hs & Hr)] [(C' & -> & HC')|(Hs' & Hr')].
  - exact (scaled_inverse_same n r H H' C C' HH HC HC').
  - exfalso. destruct HC as (_ & B & HB & _). exact (singular_same n H' H HH' Hs' B HB).
  - exfalso. destruct HC' as (_ & B & HB & _). exact (singular_same n H H' HH Hs B HB).
  - destruct Hr as [(C & -> & HC)|(Hk & ->)], Hr' as [(C' & -> & HC')|(Hk' & ->)].
    + exact (scaled_inverse_same n r K K' C C' HK HC HC').
    + exfalso. destruct HC as (_ & B & HB & _). exact (singular_same n K' K HK' Hk' B HB).
    + exfalso. destruct HC' as (_ & B & HB & _). exact (singular_same n K K' HK Hk B HB).
    + exact I.
Qed.
