(** * GuessFacts: proofs about the model of InteractiveGuess. *)
From Coq Require Import Reals Lra Lia Permutation FunctionalExtensionality.
From Verif Require Import PyBase PyFacts Signature SignatureFacts Expr NumPy NumFacts Model ModelSpec Objective ObjSpec Fit FitSpec FitFacts FitData ExprCallFacts Guess GuessSpec.
Local Open Scope R_scope.
Local Open Scope string_scope.
Local Open Scope list_scope.

(** ** TakesData with positional arguments *)
Lemma takes_sig om : good_names om [] -> takes_signature om = Ok (sig_of om []).
Proof.
  intros Hg. rewrite <- (fit_signature_ok om [] Hg). unfold takes_signature, fit_signature, fit_parameters.
  cbn [map concat]. rewrite app_nil_r.
  assert (Hn : NoDup (make_parameters om (map sigma_of (om_dep om)))).
  { apply (NoDup_map_inv fst). unfold make_parameters. rewrite map_map. cbn [fst]. apply Hg. }
  rewrite (dedup_id _ Hn). reflexivity.
Qed.
Lemma in_order_ext (names : list string) (f g : string -> option datum) : (forall n, In n names -> f n = g n) -> in_order names f = in_order names g.
Proof. intros H. unfold in_order. f_equal. apply map_ext_in. intros n Hn. rewrite H by exact Hn. reflexivity. Qed.
Lemma takes_args om args kw : good_names om [] -> NoDup (dkeys kw) ->
  match takes_data_args om (sig_of om []) None args kw with
  | Ok t => FitSpec.well_formed (argument_names om []) args kw /\
      forall v, In v (om_indep om ++ om_dep om) -> stored (td_data t) v = Some (as_given (data_for om [] args kw v))
  | Raise e => ~ all_data om args kw
  end.
Proof.
  intros Hg Hkw. pose proof (sig_names om [] Hg) as Hsn. assert (Hgn : NoDup (argument_names om [])) by apply Hg.
  pose proof (bind_spec false (sig_of om []) args kw (sig_positional om []) ltac:(rewrite Hsn; exact Hgn) Hkw) as Hb. rewrite Hsn in Hb.
  unfold takes_data_args. unfold sig_bind. destruct (sig_bind_gen false (sig_of om []) args kw) as [b|e]; cbn [bind].
  2:{ intros [Hw [Hd _]]. apply (proj2 Hb). split; [exact Hw|]. intros _ p Hp Hdf Hq.
      pose proof (sig_default om [] p Hg Hp Hdf) as Hin. cbn [map concat] in Hin. rewrite app_nil_r in Hin. apply in_map_iff in Hin as (v & Ev & Hv).
      destruct (Hd v Hv) as (a & Ea & _). unfold data_for in Ea. rewrite Ev, Hq in Ea. discriminate. }
  destruct Hb as (Hw & Hreq & Eb).
  assert (Hgb : forall n, dget b n = if inb n (argument_names om []) then given (argument_names om []) args kw n else None).
  { intros n. rewrite Eb. apply in_order_get. }
  assert (Hnb : NoDup (dkeys b)) by (rewrite Eb; apply in_order_nodup; exact Hgn).
  assert (Hkb : forall n, In n (dkeys b) -> In n (argument_names om [])).
  { intros n Hn. apply inb_In. destruct (inb n (argument_names om [])) eqn:E; [reflexivity|]. exfalso.
    pose proof (Hgb n) as Q. rewrite E in Q. apply dget_None in Q. exact (Q Hn). }
  assert (Hre : sig_bind_gen false (sig_of om []) [] b = Ok b).
  { pose proof (bind_spec false (sig_of om []) [] b (sig_positional om []) ltac:(rewrite Hsn; exact Hgn) Hnb) as Hb2. rewrite Hsn in Hb2.
    assert (Hgv : forall n, given (argument_names om []) [] b n = dget b n) by (intros n; unfold given; rewrite combine_nil; reflexivity).
    destruct (sig_bind_gen false (sig_of om []) [] b) as [b'|e].
    - destruct Hb2 as (_ & _ & ->). f_equal. rewrite Eb at 2. apply in_order_ext. intros n Hn. rewrite Hgv, Hgb, (proj2 (inb_In n _) Hn). reflexivity.
    - exfalso. apply (proj2 Hb2). split.
      + split; [simpl; lia|]. split; [exact Hnb|]. split; [intros n []|exact Hkb].
      + intros _ p Hp Hdf. rewrite Hgv, Hgb. rewrite (proj2 (inb_In _ _)); [exact (Hreq eq_refl p Hp Hdf)|]. rewrite <- Hsn. apply in_map; exact Hp. }
  pose proof (takes_spec om [] None b Hg Hnb Hkb) as Ht. unfold takes_data, takes_data_args, sig_bind in Ht. rewrite Hre in Ht. cbn [bind] in Ht.
  assert (Hval : forall v, In v (vars_of om) -> valof b (sname v) = data_for om [] args kw v).
  { intros v Hv. unfold valof, data_for. rewrite Hgb, (proj2 (inb_In _ _)); [reflexivity|apply name_in_sig; exact Hv]. }
  assert (Hin : forall v, In v (om_indep om ++ om_dep om) -> In v (vars_of om)).
  { intros v Hv. unfold vars_of. rewrite app_assoc. apply in_or_app; left; exact Hv. }
  destruct (takes_bound om (sig_of om []) None b) as [t|e].
  - destruct Ht as (_ & T2 & _). split; [exact Hw|]. intros v Hv. rewrite (T2 v Hv), Hval by (apply Hin; exact Hv). reflexivity.
  - intros (_ & Hd & Hs). destruct Ht as [[(n & Hn & Hq) _]|[(v & Hv & Hns) _]].
    + unfold required_names in Hn. cbn [map concat] in Hn. rewrite app_nil_r in Hn. apply in_map_iff in Hn as (v & <- & Hv).
      destruct (Hd v Hv) as (a & Ea & _). pose proof (Hval v (Hin v Hv)) as E. unfold valof in E. rewrite Hq in E. rewrite <- E in Ea. discriminate.
    + apply Hns. rewrite !Hval; [apply Hs; exact Hv| |].
      * unfold vars_of. rewrite !in_app_iff. right; right. apply in_map; exact Hv.
      * apply Hin. apply in_or_app; right; exact Hv.
Qed.

(** ** minimum and maximum *)
Lemma fold_min l : forall x, (forall y, In y (x :: l) -> fold_left Rmin l x <= y) /\ In (fold_left Rmin l x) (x :: l).
Proof.
  induction l as [|a l IH]; intros x; cbn [fold_left].
  - split; [intros y [<-|[]]; lra|left; reflexivity].
  - destruct (IH (Rmin x a)) as [I1 I2]. split.
    + intros y Hy. pose proof (I1 (Rmin x a) (or_introl eq_refl)) as H0. pose proof (Rmin_l x a). pose proof (Rmin_r x a).
      destruct Hy as [<-|[<-|Hy]]; [lra|lra|apply I1; right; exact Hy].
    + destruct I2 as [E|H]; [|right; right; exact H]. rewrite <- E. unfold Rmin. destruct (Rle_dec x a); [left|right; left]; reflexivity.
Qed.
Lemma fold_max l : forall x, (forall y, In y (x :: l) -> y <= fold_left Rmax l x) /\ In (fold_left Rmax l x) (x :: l).
Proof.
  induction l as [|a l IH]; intros x; cbn [fold_left].
  - split; [intros y [<-|[]]; lra|left; reflexivity].
  - destruct (IH (Rmax x a)) as [I1 I2]. split.
    + intros y Hy. pose proof (I1 (Rmax x a) (or_introl eq_refl)) as H0. pose proof (Rmax_l x a). pose proof (Rmax_r x a).
      destruct Hy as [<-|[<-|Hy]]; [lra|lra|apply I1; right; exact Hy].
    + destruct I2 as [E|H]; [|right; right; exact H]. rewrite <- E. unfold Rmax. destruct (Rle_dec x a); [right; left|left]; reflexivity.
Qed.
Lemma np_min_spec a : match np_min a with Ok m => least a m | Raise e => indices (shp a) = [] end.
Proof.
  unfold np_min, np_fold. destruct (values a) as [|x l] eqn:E; unfold values in E.
  - destruct (indices (shp a)); [reflexivity|discriminate].
  - destruct (fold_min l x) as [F1 F2]. rewrite <- E in F1, F2. split.
    + apply in_map_iff in F2 as (i & Ei & Hi). eauto.
    + intros i Hi. apply F1. apply in_map; exact Hi.
Qed.
Lemma np_max_spec a : match np_max a with Ok m => greatest a m | Raise e => indices (shp a) = [] end.
Proof.
  unfold np_max, np_fold. destruct (values a) as [|x l] eqn:E; unfold values in E.
  - destruct (indices (shp a)); [reflexivity|discriminate].
  - destruct (fold_max l x) as [F1 F2]. rewrite <- E in F1, F2. split.
    + apply in_map_iff in F2 as (i & Ei & Hi). eauto.
    + intros i Hi. apply F1. apply in_map; exact Hi.
Qed.
Lemma indices_nonempty s : ~ In 0%nat s -> indices s <> [].
Proof.
  intros H E. assert (Hin : In (map (fun _ => 0%nat) s) (indices s)).
  { apply in_indices. clear E. induction s as [|d s IH]; simpl; constructor.
    - destruct d; [exfalso; apply H; left; reflexivity|lia].
    - apply IH. intros Q. apply H; right; exact Q. }
  rewrite E in Hin. exact Hin.
Qed.
Lemma extremes_spec x : match extremes x with
  | Ok (lo, hi) => exists a, datum_nd x = Some a /\ least a lo /\ greatest a hi
  | Raise e => datum_nd x = None \/ exists a, datum_nd x = Some a /\ indices (shp a) = []
  end.
Proof.
  unfold extremes. destruct (datum_nd x) as [a|]; [|left; reflexivity].
  pose proof (np_min_spec a) as H1. pose proof (np_max_spec a) as H2.
  destruct (np_min a); cbn [bind]; [|right; eauto]. destruct (np_max a); cbn [bind]; [|right; eauto]. eauto.
Qed.
Lemma as_given_nd x : datum_nd (as_given x) = datum_nd x.
Proof. destruct x; reflexivity. Qed.

(** ** Reading sliders, drawing lines *)
Lemma foldM_dset {K X} `{EqDec K} (f : K -> res X) l : forall (d0 d : dict K X),
  foldM (fun d x => y <- f x ;; Ok (dset d x y)) d0 l = Ok d ->
  (forall x, In x l -> exists y, f x = Ok y /\ dget d x = Some y) /\ (forall x, ~ In x l -> dget d x = dget d0 x).
Proof.
  induction l as [|a l IH]; intros d0 d Hf; cbn [foldM] in Hf.
  - inversion Hf; subst. split; [intros x []|reflexivity].
  - destruct (f a) as [y|e] eqn:Ea; [|discriminate]. cbn [bind] in Hf. destruct (IH _ _ Hf) as [I1 I2]. split.
    + intros x Hx. destruct (inb x l) eqn:Hi; [apply inb_In in Hi; auto|]. apply inb_false in Hi. destruct Hx as [->|Hx]; [|contradiction].
      exists y. split; [exact Ea|]. rewrite I2 by exact Hi. apply dget_dset_eq.
    + intros x Hx. rewrite I2 by (intros Q; apply Hx; right; exact Q). rewrite dget_dset. destruct (eq_dec x a) as [->|]; [exfalso; apply Hx; left; reflexivity|reflexivity].
Qed.
Lemma foldM_dset_total {K X} `{EqDec K} (f : K -> res X) l : (forall x, In x l -> exists y, f x = Ok y) -> forall d0 : dict K X,
  exists d, foldM (fun d x => y <- f x ;; Ok (dset d x y)) d0 l = Ok d.
Proof.
  induction l as [|a l IH]; intros Hf d0; cbn [foldM]; [eauto|]. destruct (Hf a (or_introl eq_refl)) as (y & ->). cbn [bind].
  apply IH. intros x Hx. apply Hf; right; exact Hx.
Qed.

Lemma mapM_stack' {A B} (f : A -> res B) (g : A -> B) l : (forall x, In x l -> f x = Ok (g x)) -> mapM f l = Ok (map g l).
Proof.
  intros H. apply mapM_Ok. induction l as [|x l IH]; simpl; constructor; [apply H; left; reflexivity|apply IH; intros; apply H; right; assumption].
Qed.

Section Window.
  Context (om : omodel) (initial : bool) (n : nat) (percentile : R * R) (clip : R -> R -> R -> R) (pct : list R -> R -> res R).
  Notation ps := (om_params om).

  Definition with_p_value (a : pattr) (v : R) : pattr := {| p_value := v; p_min := p_min a; p_max := p_max a; p_fixed := p_fixed a |}.
  Lemma read_fold sl l : forall h h', foldM (fun h p => v <- dlook sl p ;; Ok (set_value h p v)) h l = Ok h' ->
    (forall p, In p l -> exists v, dget sl p = Some v /\ h' p = with_p_value (h p) v) /\ (forall p, ~ In p l -> h' p = h p).
  Proof using.
    induction l as [|a l IH]; intros h h' Hf; cbn [foldM] in Hf.
    - inversion Hf; subst. split; [intros x []|reflexivity].
    - unfold dlook in Hf at 1. destruct (dget sl a) as [v|] eqn:Ea; [|discriminate]. cbn [of_opt bind] in Hf. destruct (IH _ _ Hf) as [I1 I2]. split.
      + intros p Hp. destruct (inb p l) eqn:Hi.
        * apply inb_In in Hi. destruct (I1 p Hi) as (w & Ew & Hw). exists w. split; [exact Ew|]. rewrite Hw. unfold set_value.
          destruct (eq_dec p a); reflexivity.
        * apply inb_false in Hi. destruct Hp as [->|Hp]; [|contradiction]. exists v. split; [exact Ea|]. rewrite I2 by exact Hi. unfold set_value.
          destruct (eq_dec p p); [reflexivity|congruence].
      + intros p Hp. rewrite I2 by (intros Q; apply Hp; right; exact Q). unfold set_value. destruct (eq_dec p a) as [->|]; [exfalso; apply Hp; left; reflexivity|reflexivity].
  Qed.
  Lemma read_spec h sl h' : read_sliders om h sl = Ok h' ->
    (forall p, In p ps -> exists v, dget sl p = Some v /\ h' p = with_p_value (h p) v) /\ (forall p, ~ In p ps -> h' p = h p).
  Proof using. apply read_fold. Qed.
  Lemma read_total sl : (forall p, In p ps -> dget sl p <> None) -> forall h, exists h', read_sliders om h sl = Ok h'.
  Proof using.
    unfold read_sliders. induction ps as [|a l IH]; intros Hs h; cbn [foldM]; [eauto|]. unfold dlook at 1.
    destruct (dget sl a) eqn:Ea; [|exfalso; apply (Hs a (or_introl eq_refl)); exact Ea]. cbn [of_opt bind]. apply IH. intros p Hp. apply Hs; right; exact Hp.
  Qed.

  (** the parts of the window that never change *)
  Definition same_window (g g' : guess) : Prop :=
    gu_xlim g' = gu_xlim g /\ gu_ylim g' = gu_ylim g /\ gu_points g' = gu_points g /\ gu_grid g' = gu_grid g /\ gu_limits g' = gu_limits g.
  (** the sliders, the parameters and the lines belong together *)
  Definition up_to_date (h : heap) (g : guess) : Prop :=
    (forall p, In p ps -> dget (gu_slider g) p = Some (p_value (h p))) /\
    forall xy, In xy (projections om) -> exists pl, update_one om percentile pct h (gu_points g) (gu_grid g) xy = Ok pl /\ dget (gu_plots g) xy = Some pl.

  Lemma update_spec h g h' g' : update_plot om percentile pct h g = Ok (h', g') ->
    same_window g g' /\ gu_slider g' = gu_slider g /\ up_to_date h' g' /\
    (forall p, In p ps -> exists v, dget (gu_slider g) p = Some v /\ h' p = with_p_value (h p) v) /\ (forall p, ~ In p ps -> h' p = h p).
  Proof using.
    unfold update_plot. intros Hu. destruct (read_sliders om h (gu_slider g)) as [h1|] eqn:Er; [|discriminate]. cbn [bind] in Hu.
    destruct (foldM _ (gu_plots g) (projections om)) as [pls|] eqn:Ef; [|discriminate]. cbn [bind] in Hu. inversion Hu; subst h1 g'. clear Hu.
    destruct (read_spec _ _ _ Er) as [R1 R2]. split; [repeat split|]. split; [reflexivity|]. split; [|split; [exact R1|exact R2]]. split.
    - intros p Hp. destruct (R1 p Hp) as (v & Ev & Eh). cbn [gu_slider]. rewrite Ev, Eh. reflexivity.
    - intros xy Hxy. cbn [gu_points gu_grid gu_plots].
      destruct (proj1 (foldM_dset (fun xy => update_one om percentile pct h' (gu_points g) (gu_grid g) xy) _ _ _ Ef) xy Hxy) as (pl & E1 & E2). eauto.
  Qed.
  Lemma update_total h g : (forall p, In p ps -> dget (gu_slider g) p <> None) ->
    (forall h xy, In xy (projections om) -> exists pl, update_one om percentile pct h (gu_points g) (gu_grid g) xy = Ok pl) ->
    exists hg, update_plot om percentile pct h g = Ok hg.
  Proof using.
    intros Hs Hu. unfold update_plot. destruct (read_total (gu_slider g) Hs h) as (h' & ->). cbn [bind].
    destruct (foldM_dset_total (fun xy => update_one om percentile pct h' (gu_points g) (gu_grid g) xy) (projections om) (Hu h') (gu_plots g)) as (d & ->).
    cbn [bind]. eauto.
  Qed.

  Lemma same_trans g1 g2 g3 : same_window g1 g2 -> same_window g2 g3 -> same_window g1 g3.
  Proof using. intros (A1 & A2 & A3 & A4 & A5) (B1 & B2 & B3 & B4 & B5). unfold same_window. rewrite B1, B2, B3, B4, B5, A1, A2, A3, A4, A5. repeat split; reflexivity. Qed.

  Lemma move_spec h g p v h' g' : move om percentile pct h g p v = Ok (h', g') -> up_to_date h g ->
    same_window g g' /\ up_to_date h' g' /\
    (forall q, In q ps -> h' q = with_p_value (h q) (if eq_dec q p then v else p_value (h q))) /\ (forall q, ~ In q ps -> h' q = h q).
  Proof using.
    unfold move. intros Hm [U1 _]. destruct (dlook (gu_slider g) p) as [w|]; [|discriminate]. cbn [bind] in Hm.
    destruct (update_spec _ _ _ _ Hm) as (S1 & S2 & S3 & S4 & S5). split; [destruct S1 as (?&?&?&?&?); repeat split; assumption|]. split; [exact S3|]. split; [|exact S5].
    intros q Hq. destruct (S4 q Hq) as (x & Ex & Eh). cbn [gu_slider] in Ex. rewrite dget_dset in Ex. rewrite Eh. destruct (eq_dec q p); [congruence|].
    rewrite (U1 q Hq) in Ex. congruence.
  Qed.
  Lemma with_p_value_same a : with_p_value a (p_value a) = a.
  Proof using. destruct a; reflexivity. Qed.
  Lemma moves_spec moves : forall h g h' g', foldM (fun hg pv => move om percentile pct (fst hg) (snd hg) (fst pv) (snd pv)) (h, g) moves = Ok (h', g') ->
    up_to_date h g -> same_window g g' /\ up_to_date h' g' /\
    (forall q, In q ps -> h' q = with_p_value (h q) (match last_move moves q with Some v => v | None => p_value (h q) end)) /\ (forall q, ~ In q ps -> h' q = h q).
  Proof using.
    induction moves as [|[p v] moves IH]; intros h g h' g' Hf Hu; cbn [foldM fst snd] in Hf.
    - inversion Hf; subst. split; [repeat split|]. split; [exact Hu|]. split; [|reflexivity]. intros q _. cbn [last_move]. symmetry. apply with_p_value_same.
    - destruct (move om percentile pct h g p v) as [[h1 g1]|] eqn:Em; [|discriminate]. cbn [bind] in Hf.
      destruct (move_spec _ _ _ _ _ _ Em Hu) as (S1 & S2 & S3 & S4). destruct (IH _ _ _ _ Hf S2) as (T1 & T2 & T3 & T4).
      split; [eapply same_trans; eassumption|]. split; [exact T2|]. split.
      + intros q Hq. rewrite (T3 q Hq), (S3 q Hq). cbn [last_move]. unfold with_p_value. cbn [p_value p_min p_max p_fixed].
        destruct (last_move moves q); [reflexivity|]. destruct (eq_dec q p); reflexivity.
      + intros q Hq. rewrite (T4 q Hq). apply S4; exact Hq.
  Qed.

  Hypothesis Hwt : well_typed om.
  Hypothesis Hgn : good_names om [].
  Lemma indep_nd : NoDup (om_indep om).
  Proof using Hwt. destruct Hwt as ((_ & H & _) & _). rewrite map_app in H. apply NoDup_app_split in H as (H & _). apply NoDup_map_inv in H. exact H. Qed.
  Lemma params_nd : NoDup ps.
  Proof using Hwt. destruct Hwt as ((_ & H & _) & _). rewrite map_app in H. apply NoDup_app_split in H as (_ & H & _). apply NoDup_map_inv in H. exact H. Qed.
  Lemma dep_nd : NoDup (om_dep om).
  Proof using Hwt. apply Hwt. Qed.

  (** *** the window as opened *)
  Definition windowed (stretch_left : bool) (a : nd) (w : R * R) : Prop :=
    exists mn mx, least a mn /\ greatest a mx /\ w = ((if stretch_left then mn - / 10 * (mx - mn) else mn), mx + / 10 * (mx - mn)).
  Definition cols (g : guess) : list (list R) := map snd (gu_points g).
  Definition opened args kw (g : guess) : Prop :=
    dkeys (gu_xlim g) = om_indep om /\
    (forall v, In v (om_indep om) -> exists a w, data_of om args kw v = Some a /\ dget (gu_xlim g) v = Some w /\ windowed (negb initial) a w) /\
    (forall v, In v (om_dep om) -> exists a w, data_of om args kw v = Some a /\ dget (gu_ylim g) v = Some w /\ windowed true a w) /\
    gu_points g = map (fun kw => (fst kw, linspace (fst (snd kw)) (snd (snd kw)) n)) (gu_xlim g) /\
    gu_grid g = map (fun ik => (fst (snd ik), flatten (mesh (cols g) (fst ik)))) (combine (seq 0 (List.length (gu_points g))) (gu_points g)).

  Lemma opened_same args kw g g' : same_window g g' -> opened args kw g -> opened args kw g'.
  Proof using. intros (A1 & A2 & A3 & A4 & A5) (O1 & O2 & O3 & O4 & O5). unfold opened, cols in *. rewrite A1, A2, A3, A4. repeat split; assumption. Qed.

  Lemma window_fold (F : datum -> res (R * R)) l : forall out, mapM (fun kx => w <- F (snd kx) ;; Ok (fst kx, w)) l = Ok out ->
    dkeys out = dkeys l /\ (NoDup (dkeys l) -> forall (v : sym) x, dget l v = Some x -> exists w, F x = Ok w /\ dget out v = Some w).
  Proof using.
    induction l as [|[k x] l IH]; intros out Hm; cbn [mapM] in Hm.
    - inversion Hm; subst. split; [reflexivity|discriminate].
    - cbn [fst snd] in Hm. destruct (F x) as [w|] eqn:Ew; [|discriminate]. cbn [bind] in Hm. destruct (mapM _ l) as [o|] eqn:Eo; [|discriminate].
      cbn [bind] in Hm. inversion Hm; subst out. destruct (IH o eq_refl) as [I1 I2]. split; [cbn; f_equal; exact I1|].
      intros Hn v x0. cbn [dkeys map fst] in Hn. inversion Hn as [|? ? Hk Hn']; subst. cbn [dget]. destruct (eq_dec v k) as [->|].
      + intros E. inversion E; subst. eauto.
      + apply I2; exact Hn'.
  Qed.
  Lemma x_window_spec x : match x_window initial x with
    | Ok w => exists a, datum_nd x = Some a /\ windowed (negb initial) a w
    | Raise e => datum_nd x = None \/ exists a, datum_nd x = Some a /\ indices (shp a) = [] end.
  Proof using.
    unfold x_window. pose proof (extremes_spec x) as H. destruct (extremes x) as [[lo hi]|e]; cbn [bind]; [|exact H].
    destruct H as (a & Ea & H1 & H2). exists a. split; [exact Ea|]. exists lo, hi. split; [exact H1|]. split; [exact H2|]. destruct initial; reflexivity.
  Qed.
  Lemma y_window_spec x : match y_window x with
    | Ok w => exists a, datum_nd x = Some a /\ windowed true a w
    | Raise e => datum_nd x = None \/ exists a, datum_nd x = Some a /\ indices (shp a) = [] end.
  Proof using.
    unfold y_window. pose proof (extremes_spec x) as H. destruct (extremes x) as [[lo hi]|e]; cbn [bind]; [|exact H].
    destruct H as (a & Ea & H1 & H2). exists a. split; [exact Ea|]. exists lo, hi. auto.
  Qed.
  Lemma ind_spec d : (forall v, In v (om_indep om) -> exists x, dget d (KSym v) = Some x) ->
    independent_data om d = Ok (map (fun v => (v, match dget d (KSym v) with Some x => x | None => DataNone end)) (om_indep om)).
  Proof using Hwt.
    intros H. unfold independent_data. rewrite (mapM_stack' (fun v => x <- dlook d (KSym v) ;; Ok (v, x)) (fun v => (v, match dget d (KSym v) with Some x => x | None => DataNone end))).
    - cbn [bind]. rewrite dict_of_nodup; [reflexivity|]. rewrite map_map. cbn [fst]. rewrite map_id. apply indep_nd.
    - intros v Hv. unfold dlook. destruct (H v Hv) as (x & ->). reflexivity.
  Qed.
  Lemma dep_spec d : (forall v, In v (om_dep om) -> exists x, dget d (KSym v) = Some x) ->
    dependent_data om d = map (fun v => (v, match dget d (KSym v) with Some x => x | None => DataNone end)) (om_dep om).
  Proof using Hwt.
    intros H. unfold dependent_data.
    assert (E : forall l, (forall v, In v l -> In v (om_dep om)) -> concat (map (fun v => match dget d (KSym v) with Some x => [(v, x)] | None => [] end) l) =
                map (fun v => (v, match dget d (KSym v) with Some x => x | None => DataNone end)) l).
    { induction l as [|v l IH]; intros Hl; [reflexivity|]. cbn [map concat]. destruct (H v (Hl v (or_introl eq_refl))) as (x & Ex). rewrite Ex. cbn [app]. rewrite IH; [reflexivity|].
      intros w Hw. apply Hl; right; exact Hw. }
    rewrite E by auto. apply dict_of_nodup. rewrite map_map. cbn [fst]. rewrite map_id. apply dep_nd.
  Qed.

  Lemma dget_map_self {X} (F : sym -> X) l v : In v l -> dget (map (fun v => (v, F v)) l) v = Some (F v).
  Proof using. induction l as [|a l IH]; [intros []|]. intros Hv. cbn [map dget]. destruct (eq_dec v a) as [->|]; [reflexivity|]. destruct Hv; [congruence|auto]. Qed.
  Lemma dkeys_map_self {X} (F : sym -> X) l : dkeys (map (fun v => (v, F v)) l) = l.
  Proof using. unfold dkeys. rewrite map_map. cbn [fst]. apply map_id. Qed.

  Notation guess_init := (guess_init om initial n percentile clip pct).
  Lemma init_spec h args kw h' g : NoDup (dkeys kw) -> guess_init h args kw = Ok (h', g) ->
    opened args kw g /\ up_to_date h' g /\
    (forall p, In p ps -> dget (gu_limits g) p = Some (slider_limits (h p)) /\
       h' p = with_p_value (h p) (clip (fst (slider_limits (h p))) (snd (slider_limits (h p))) (p_value (h p)))) /\
    (forall p, ~ In p ps -> h' p = h p).
  Proof using Hwt Hgn.
    intros Hkw. unfold Guess.guess_init. rewrite (takes_sig om Hgn). cbn [bind].
    pose proof (takes_args om args kw Hgn Hkw) as Ht. destruct (takes_data_args om (sig_of om []) None args kw) as [t|]; [|discriminate]. cbn [bind].
    destruct Ht as [_ Hst]. unfold stored in Hst.
    assert (Hi : forall v, In v (om_indep om) -> dget (td_data t) (KSym v) = Some (as_given (data_for om [] args kw v))) by (intros v Hv; apply Hst; apply in_or_app; left; exact Hv).
    assert (Hd : forall v, In v (om_dep om) -> dget (td_data t) (KSym v) = Some (as_given (data_for om [] args kw v))) by (intros v Hv; apply Hst; apply in_or_app; right; exact Hv).
    rewrite (ind_spec (td_data t)) by (intros v Hv; rewrite (Hi v Hv); eauto). cbn [bind].
    rewrite (dep_spec (td_data t)) by (intros v Hv; rewrite (Hd v Hv); eauto).
    set (ind := map _ (om_indep om)). set (dep := map _ (om_dep om)).
    destruct (mapM _ ind) as [xlim|] eqn:Ex; [|discriminate]. cbn [bind].
    destruct (mapM _ dep) as [ylim|] eqn:Ey; [|discriminate]. cbn [bind].
    destruct (projections om) as [|q0 l0] eqn:Eproj; [discriminate|]. cbn [bind]. rewrite <- Eproj.
    match goal with |- context [foldM ?F ?I (projections om)] => destruct (foldM F I (projections om)) as [pls|] eqn:Ep end; [|discriminate]. cbn [bind]. intros Hu.
    destruct (window_fold _ _ _ Ex) as [X1 X2]. destruct (window_fold _ _ _ Ey) as [Y1 Y2].
    destruct (update_spec _ _ _ _ Hu) as (S1 & S2 & S3 & S4 & S5). cbn [gu_slider gu_limits] in *.
    split; [|split; [exact S3|split; [|exact S5]]].
    - eapply opened_same; [exact S1|]. unfold opened, cols. cbn [gu_xlim gu_ylim gu_points gu_grid].
      unfold ind in X1. rewrite dkeys_map_self in X1. unfold dep in Y1. rewrite dkeys_map_self in Y1.
      split; [exact X1|]. split; [|split; [|split; reflexivity]].
      + intros v Hv. destruct (X2 ltac:(unfold ind; rewrite dkeys_map_self; apply indep_nd) v _ (dget_map_self _ _ v Hv)) as (w & Ew & Dw). cbn beta in Ew. rewrite (Hi v Hv) in Ew.
        pose proof (x_window_spec (as_given (data_for om [] args kw v))) as Q. rewrite Ew in Q. destruct Q as (a & Ea & Wa). rewrite as_given_nd in Ea.
        exists a, w. unfold data_of. auto.
      + intros v Hv. destruct (Y2 ltac:(unfold dep; rewrite dkeys_map_self; apply dep_nd) v _ (dget_map_self _ _ v Hv)) as (w & Ew & Dw). cbn beta in Ew. rewrite (Hd v Hv) in Ew.
        pose proof (y_window_spec (as_given (data_for om [] args kw v))) as Q. rewrite Ew in Q. destruct Q as (a & Ea & Wa). rewrite as_given_nd in Ea.
        exists a, w. unfold data_of. auto.
    - intros p Hp. destruct S1 as (_ & _ & _ & _ & E5). cbn [gu_limits] in E5. rewrite E5.
      rewrite dict_of_nodup by (rewrite map_map; cbn [fst]; rewrite map_id; apply params_nd).
      split; [apply (dget_map_self (fun p => slider_limits (h p))); exact Hp|].
      destruct (S4 p Hp) as (v & Ev & Eh). rewrite dict_of_nodup in Ev by (rewrite map_map; cbn [fst]; rewrite map_id; apply params_nd).
      rewrite (dget_map_self (fun p => clip (fst (slider_limits (h p))) (snd (slider_limits (h p))) (p_value (h p)))) in Ev by exact Hp.
      inversion Ev; subst. exact Eh.
  Qed.

  (** *** evaluating the model on the grid *)
  Context (f : (sym -> R) -> sym -> R).
  Hypothesis Hf : pointwise om f.
  Notation K := (List.length (om_indep om)).
  Definition columns (xl : dict sym (R * R)) : list (list R) := map (fun w => linspace (fst w) (snd w) n) (map snd xl).
  Definition the_grid (c : list (list R)) : dict sym nd := map (fun iv => (snd iv, flatten (mesh c (fst iv)))) (combine (seq 0 K) (om_indep om)).
  Lemma opened_grid args kw g : opened args kw g -> gu_points g = combine (om_indep om) (cols g) /\ cols g = columns (gu_xlim g) /\
    List.length (cols g) = K /\ (forall c, In c (cols g) -> List.length c = n) /\ gu_grid g = the_grid (cols g).
  Proof using.
    intros (O1 & _ & _ & O4 & O5).
    assert (Ec : cols g = columns (gu_xlim g)) by (unfold cols, columns; rewrite O4, !map_map; reflexivity).
    assert (Ek : map fst (gu_points g) = om_indep om) by (rewrite O4, map_map; cbn [fst]; exact O1).
    assert (El : List.length (cols g) = K) by (unfold cols; rewrite <- Ek, !map_length; reflexivity).
    split; [|split; [exact Ec|split; [exact El|split]]].
    - rewrite <- Ek. unfold cols. clear. induction (gu_points g) as [|[a b] l IH]; [reflexivity|]. cbn [map fst snd combine]. rewrite <- IH. reflexivity.
    - rewrite Ec. unfold columns. intros c Hc. rewrite map_map in Hc. apply in_map_iff in Hc as (w & <- & _). unfold linspace. rewrite map_length, seq_length. reflexivity.
    - rewrite O5. unfold the_grid. rewrite <- Ek, map_length. set (c := cols g). generalize (List.length (gu_points g)) at 1 2. clear. intros m.
      generalize 0%nat. revert m. induction (gu_points g) as [|[a b] l IH]; intros m s; destruct m; try reflexivity. cbn [seq map combine fst snd]. f_equal. apply IH.
  Qed.

  Definition coords (c : list (list R)) (j : list nat) : list R := map (fun i => nth (nth (axis_of (List.length c) i) j 0%nat) (nth i c []) 0) (seq 0 (List.length c)).
  Lemma dkeys_grid c : dkeys (the_grid c) = om_indep om.
  Proof using.
    unfold the_grid, dkeys. rewrite map_map. cbn [fst]. generalize 0%nat. induction (om_indep om) as [|v l IH]; intros s; [reflexivity|]. cbn [List.length seq combine map snd]. f_equal. apply IH.
  Qed.
  Lemma grid_get c i v : nth_error (om_indep om) i = Some v -> dget (the_grid c) v = Some (flatten (mesh c i)).
  Proof using Hwt.
    intros Hv. apply In_dget.
    - rewrite dkeys_grid. apply indep_nd.
    - unfold the_grid. apply in_map_iff. exists (i, v). split; [reflexivity|]. apply nth_error_In with i. rewrite nth_error_combine, Hv.
      assert (Hi : (i < K)%nat) by (apply nth_error_Some; congruence). rewrite (nth_error_nth' _ 0%nat) by (rewrite seq_length; exact Hi). rewrite seq_nth by exact Hi. reflexivity.
  Qed.
  Lemma mesh_shape_rep c : (forall l, In l c -> List.length l = n) -> mesh_shape c = repeat n (List.length c).
  Proof using.
    intros H. unfold mesh_shape.
    assert (E : forall d : list (list R), (forall l, In l d -> List.length l = n) -> rev (map (@List.length R) d) = repeat n (List.length d)).
    { intros d Hd. assert (Q : map (@List.length R) d = repeat n (List.length d)).
      { induction d as [|a d IH]; [reflexivity|]. cbn [map List.length repeat]. rewrite (Hd a) by (left; reflexivity). f_equal. apply IH. intros l Hl. apply Hd; right; exact Hl. }
      rewrite Q. clear. induction (List.length d) as [|k IH]; [reflexivity|]. cbn [repeat rev]. rewrite IH. symmetry. apply repeat_cons. }
    destruct c as [|a [|b r]]; [reflexivity|apply E; exact H|]. rewrite E; [reflexivity|]. intros l [<-|[<-|Hl]]; apply H; simpl; auto.
  Qed.
  Notation sh := (repeat n K).
  Notation NN := (List.length (indices sh)).
  Lemma NN_pos : (0 < n)%nat -> (0 < NN)%nat.
  Proof using.
    intros Hn. destruct (indices sh) eqn:E; [|simpl; lia]. exfalso. apply (indices_nonempty sh); [|exact E]. intros H. apply repeat_spec in H. lia.
  Qed.

  Section Grid.
    Context (c : list (list R)).
    Hypothesis Hcl : List.length c = K.
    Hypothesis Hcn : forall l, In l c -> List.length l = n.
    Hypothesis Hn : (0 < n)%nat.
    Lemma flat_shape i : shp (flatten (mesh c i)) = [NN].
    Proof using Hcl Hcn. unfold flatten. cbn [shp mesh]. rewrite (mesh_shape_rep c Hcn), Hcl. reflexivity. Qed.
    Lemma flat_val i t : val (flatten (mesh c i)) [t] = nth (nth (axis_of K i) (nth t (indices sh) []) 0%nat) (nth i c []) 0.
    Proof using Hcl Hcn. unfold flatten. cbn [val mesh shp hd]. rewrite (mesh_shape_rep c Hcn), Hcl. reflexivity. Qed.
    Lemma elem1 a t : shp a = [NN] -> (t < NN)%nat -> elem a [t] = val a [t].
    Proof using. intros Hs Ht. unfold elem. rewrite Hs. cbn [bidx]. destruct (Nat.eqb_spec NN 1) as [E|E]; [|reflexivity]. assert (t = 0)%nat by (apply Nat.lt_1_r; rewrite <- E; exact Ht). subst; reflexivity. Qed.
    Definition X0 (s : sym) : nd := match dget (the_grid c) s with Some a => a | None => scalar 0 end.
    Lemma args_are h : key2str (dupdate (map (fun kv => (KSym (fst kv), snd kv)) (the_grid c)) (dict_of (map (fun p => (KSym p, scalar (p_value (h p)))) ps))) =
      named (feed X0 (fun p => p_value (h p))) (om_indep om ++ ps).
    Proof using Hwt.
      assert (Hks : NoDup (map KSym (om_indep om ++ ps))).
      { apply FinFun.Injective_map_NoDup; [intros a b E; congruence|]. destruct Hwt as ((_ & H & _) & _). apply NoDup_map_inv in H. exact H. }
      rewrite map_app in Hks. pose proof (NoDup_app_split _ _ Hks) as (_ & Hk2 & _).
      rewrite (dict_of_nodup (map (fun p => (KSym p, scalar (p_value (h p)))) ps)) by (rewrite map_map; cbn [fst]; exact Hk2).
      assert (Hg : map (fun kv => (KSym (fst kv), snd kv)) (the_grid c) = map (fun v => (KSym v, X0 v)) (om_indep om)).
      { assert (E : the_grid c = map (fun v => (v, X0 v)) (om_indep om)).
        { transitivity (map (fun v => (v, X0 v)) (dkeys (the_grid c))); [|rewrite dkeys_grid; reflexivity]. unfold dkeys. rewrite map_map. transitivity (map (fun x => x) (the_grid c)); [symmetry; apply map_id|]. apply map_ext_in. intros [k a] Hin. cbn [fst]. unfold X0.
          rewrite (In_dget (the_grid c) k a); [reflexivity|rewrite dkeys_grid; apply indep_nd|exact Hin]. }
        rewrite E at 1. rewrite map_map. reflexivity. }
      rewrite Hg. rewrite dupdate_app_nodup by (unfold dkeys; rewrite !map_map; cbn [fst]; exact Hks).
      unfold key2str. rewrite map_app, !map_map. cbn [fst snd kwstr]. unfold named. rewrite map_app.
      destruct Hwt as ((_ & Hnn & _) & Hpp & Hvv).
      rewrite dict_of_nodup.
      - f_equal; apply map_ext_in; intros s Hs; unfold feed; [rewrite (Hvv s Hs)|rewrite (Hpp s Hs)]; reflexivity.
      - rewrite map_app, !map_map. cbn [fst]. rewrite <- map_app. exact Hnn.
    Qed.
    Lemma feed_point h t : (t < NN)%nat ->
      (fun s => elem (feed X0 (fun p => p_value (h p)) s) [t]) = point h (combine (om_indep om) (coords c (nth t (indices sh) []))).
    Proof using Hwt Hcl Hcn.
      intros Ht. apply functional_extensionality. intros s. unfold feed, point. destruct (is_par s); [reflexivity|].
      destruct (in_dec eq_dec s (om_indep om)) as [Hin|Hin].
      - apply In_nth_error in Hin as (i & Hi). assert (Hlt : (i < K)%nat) by (apply nth_error_Some; congruence).
        unfold X0. rewrite (grid_get c i s Hi). rewrite elem1 by (apply flat_shape || exact Ht). rewrite flat_val.
        assert (Hg : dget (combine (om_indep om) (coords c (nth t (indices sh) []))) s = nth_error (coords c (nth t (indices sh) [])) i).
        { pose proof indep_nd as Hnd. assert (Hl : List.length (coords c (nth t (indices sh) [])) = K) by (unfold coords; rewrite map_length, seq_length; exact Hcl).
          revert Hi Hnd Hl. generalize (coords c (nth t (indices sh) [])). clear. intros l. revert i l. induction (om_indep om) as [|a L IH]; intros i l Hi Hnd Hl; [destruct i; discriminate|].
          destruct l as [|x l]; [discriminate|]. cbn [combine dget]. inversion Hnd; subst. destruct i as [|i]; cbn [nth_error] in *.
          - inversion Hi; subst. destruct (eq_dec s s); [reflexivity|congruence].
          - destruct (eq_dec s a) as [->|]; [exfalso; apply H1; eapply nth_error_In; exact Hi|]. apply IH; [exact Hi|assumption|simpl in Hl; lia]. }
        rewrite Hg. unfold coords. rewrite nth_error_map, Hcl, (nth_error_nth' _ 0%nat) by (rewrite seq_length; exact Hlt). rewrite seq_nth by exact Hlt. reflexivity.
      - unfold X0. rewrite (proj2 (dget_None _ _)) by (rewrite dkeys_grid; exact Hin).
        rewrite (proj2 (dget_None _ _)); [reflexivity|]. intros Q. apply Hin. unfold dkeys in Q. apply in_map_iff in Q as ([k x] & <- & Q). eapply in_combine_l; exact Q.
    Qed.
    Lemma output_get r y a : NoDup (map sname (dkeys r)) -> dget r y = Some a -> output_of r y = Ok a.
    Proof using.
      intros Hnd Hy. unfold output_of, mo_attr, mo_names, mo_dict. cbn [mo_vars mo_out].
      rewrite dict_of_nodup by (rewrite map_map; cbn [fst]; exact Hnd).
      assert (Hk : In y (dkeys r)) by (apply dget_Some_key in Hy; exact Hy).
      rewrite (In_dget _ (sname y) y); [|unfold dkeys at 1; rewrite map_map; exact Hnd|apply in_map_iff; exists y; auto].
      assert (E : combine (dkeys r) (map snd r) = r) by (clear; unfold dkeys; induction r as [|[k x] r IH]; [reflexivity|]; cbn [map fst snd combine]; rewrite IH; reflexivity).
      rewrite E. rewrite dict_of_nodup by (apply NoDup_map_inv in Hnd; exact Hnd). unfold dlook. rewrite Hy. reflexivity.
    Qed.
    Lemma eval_at h : exists r, eval_model om h (the_grid c) = Ok r /\ forall y, In y (om_dep om) -> exists a, output_of r y = Ok a /\ shp a = [NN] /\
      forall t, (t < NN)%nat -> val a [t] = f (point h (combine (om_indep om) (coords c (nth t (indices sh) [])))) y.
    Proof using Hwt Hf Hcl Hcn Hn.
      destruct (Hf NN X0 (fun p => p_value (h p)) (NN_pos Hn)) as (r & Hr & Hnd & Hy).
      - intros v Hv. apply In_nth_error in Hv as (i & Hi). unfold X0. rewrite (grid_get c i v Hi). apply flat_shape.
      - exists r. split; [unfold eval_model; apply Hr; intros nm; rewrite args_are; reflexivity|]. intros y Hin. destruct (Hy y Hin) as (a & Ea & Sa & Va).
        exists a. split; [apply output_get; assumption|]. split; [exact Sa|]. intros t Ht. rewrite (Va t Ht), feed_point by exact Ht. reflexivity.
    Qed.
  End Grid.
End Window.
