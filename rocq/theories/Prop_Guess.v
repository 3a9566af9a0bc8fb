(** * Prop_Guess: properties C74 and C75, InteractiveGuess. *)
From Coq Require Import Reals Lra Lia Permutation Relations.
From Verif Require Import PyBase PyFacts Signature SignatureFacts Expr ExprR NumPy NumFacts Model ModelSpec ModelFacts Decide Objective ObjSpec Minimizer MinSpec MinFacts MinLemmas Fit FitSpec Cast ArrModel ArrSpec ArrFacts Guess GuessSpec GuessFacts GuessMain GuessSym Prop_Model.
Local Open Scope R_scope.
Local Open Scope string_scope.
Local Open Scope list_scope.

(** ** C74.  [session om initial n percentile clip pct h args kw moves = Ok (h', g)]: with the parameters
    as in [h], a window is opened for the data [args], [kw] and its sliders are moved as in [moves];
    it then looks like [g], and the parameters are as in [h'].
    Every parameter, fixed or not, has a slider; it goes from the minimum of the parameter (without minimum: 0) to
    its maximum (without maximum: twice its value). *)
Theorem C74_sliders : forall om initial n percentile clip pct h args kw moves h' g,
  well_typed om -> good_names om [] -> NoDup (dkeys kw) ->
  session om initial n percentile clip pct h args kw moves = Ok (h', g) ->
  forall p, In p (om_params om) -> exists lo hi v, dget (gu_limits g) p = Some (lo, hi) /\ dget (gu_slider g) p = Some v /\
    (forall l, p_min (h p) = Some l -> lo = l) /\ (p_min (h p) = None -> lo = 0) /\
    (forall u, p_max (h p) = Some u -> hi = u) /\ (p_max (h p) = None -> hi = 2 * p_value (h p)).
Proof.
  intros om initial n percentile clip pct h args kw moves h' g Hwt Hgn Hkw Hs p Hp.
  destruct (session_spec om initial n percentile clip pct Hwt Hgn h args kw moves h' g Hkw Hs) as (_ & [S1 _] & S3 & _). destruct (S3 p Hp) as [L _].
  exists (fst (slider_limits (h p))), (snd (slider_limits (h p))), (p_value (h' p)). split; [rewrite L; reflexivity|]. split; [exact (S1 p Hp)|].
  unfold slider_limits. cbn [fst snd]. destruct (p_min (h p)), (p_max (h p)); repeat split; intros; congruence.
Qed.
Print Assumptions C74_sliders.

(** The values of the parameters are those of the sliders: where a slider was last moved to, or else where
    it started.  Nothing else about the parameters changes, and no other parameter does. *)
Theorem C74_values_follow : forall om initial n percentile clip pct h args kw moves h' g,
  well_typed om -> good_names om [] -> NoDup (dkeys kw) ->
  session om initial n percentile clip pct h args kw moves = Ok (h', g) ->
  (forall p, In p (om_params om) ->
     dget (gu_slider g) p = Some (p_value (h' p)) /\
     (forall v, last_move moves p = Some v -> p_value (h' p) = v) /\
     (last_move moves p = None -> exists lo hi, dget (gu_limits g) p = Some (lo, hi) /\ p_value (h' p) = clip lo hi (p_value (h p))) /\
     p_min (h' p) = p_min (h p) /\ p_max (h' p) = p_max (h p) /\ p_fixed (h' p) = p_fixed (h p)) /\
  (forall p, ~ In p (om_params om) -> h' p = h p).
Proof.
  intros om initial n percentile clip pct h args kw moves h' g Hwt Hgn Hkw Hs.
  destruct (session_spec om initial n percentile clip pct Hwt Hgn h args kw moves h' g Hkw Hs) as (_ & [S1 _] & S3 & S4). split; [|exact S4].
  intros p Hp. destruct (S3 p Hp) as [L E]. split; [exact (S1 p Hp)|]. rewrite E. unfold with_p_value. cbn [p_value p_min p_max p_fixed].
  split; [intros v ->; reflexivity|]. split; [|repeat split]. intros ->. rewrite L. destruct (slider_limits (h p)) as [lo hi]. eauto.
Qed.
Print Assumptions C74_values_follow.

(** A slider starts at the value it is asked to start at if that lies between its ends.  So opening the window
    leaves a value that is not negative unchanged, if (as Parameter sees to, C56) it is between the bounds. *)
Theorem C74_guess_kept : forall om initial n percentile clip pct h args kw moves h' g p,
  (forall lo hi v, lo <= v <= hi -> clip lo hi v = v) ->
  well_typed om -> good_names om [] -> NoDup (dkeys kw) ->
  session om initial n percentile clip pct h args kw moves = Ok (h', g) ->
  In p (om_params om) -> last_move moves p = None ->
  (forall l, p_min (h p) = Some l -> l <= p_value (h p)) -> (forall u, p_max (h p) = Some u -> p_value (h p) <= u) ->
  0 <= p_value (h p) \/ (p_min (h p) <> None /\ p_max (h p) <> None) ->
  h' p = h p.
Proof.
  intros om initial n percentile clip pct h args kw moves h' g p Hc Hwt Hgn Hkw Hs Hp Hl Hlo Hhi Hpos.
  destruct (session_spec om initial n percentile clip pct Hwt Hgn h args kw moves h' g Hkw Hs) as (_ & _ & S3 & _). destruct (S3 p Hp) as [_ E]. rewrite E, Hl, Hc.
  - unfold with_p_value. destruct (h p); reflexivity.
  - unfold slider_limits. cbn [fst snd]. destruct (p_min (h p)) as [l|], (p_max (h p)) as [u|]; split; try (apply Hlo; reflexivity); try (apply Hhi; reflexivity);
      destruct Hpos as [Hpos|[Q1 Q2]]; try congruence; try lra; specialize (Hlo _ eq_refl) || specialize (Hhi _ eq_refl); lra.
Qed.
Print Assumptions C74_guess_kept.

(** Not so for negative values: the value of a parameter with a minimum but no maximum, which is negative, lies
    beyond the end of its slider; a slider never shows a value beyond its end, so the window changes the value as soon as it
    opens, also if no slider is touched. *)
Theorem C74_negative_guess_refuted : forall om initial n percentile clip pct h args kw moves h' g p,
  (forall lo hi v, lo <= hi -> lo <= clip lo hi v <= hi) ->
  well_typed om -> good_names om [] -> NoDup (dkeys kw) ->
  session om initial n percentile clip pct h args kw moves = Ok (h', g) ->
  In p (om_params om) -> last_move moves p = None ->
  forall l, p_min (h p) = Some l -> p_max (h p) = None -> p_value (h p) < 0 -> l <= 2 * p_value (h p) ->
  p_value (h' p) <= 2 * p_value (h p) /\ p_value (h' p) <> p_value (h p).
Proof.
  intros om initial n percentile clip pct h args kw moves h' g p Hc Hwt Hgn Hkw Hs Hp Hl l Hmin Hmax Hneg Hle.
  destruct (session_spec om initial n percentile clip pct Hwt Hgn h args kw moves h' g Hkw Hs) as (_ & _ & S3 & _). destruct (S3 p Hp) as [_ E]. rewrite E, Hl.
  unfold with_p_value, slider_limits. rewrite Hmin, Hmax. cbn [p_value fst snd]. specialize (Hc l (2 * p_value (h p)) (p_value (h p)) Hle). lra.
Qed.
Print Assumptions C74_negative_guess_refuted.

(** A minimizer executed afterwards starts from the values of the sliders. *)
Theorem C74_fit_starts_there : forall om initial n percentile clip pct h args kw moves h' g cls jac hess cons mn uj uh,
  well_typed om -> good_names om [] -> NoDup (dkeys kw) ->
  session om initial n percentile clip pct h args kw moves = Ok (h', g) ->
  minimizer_init h' cls (om_params om) jac hess cons = Ok mn -> cls <> DifferentialEvolution ->
  exists xs, pb_x0 (execute_problem h' mn uj uh) = Some xs /\ Forall2 (fun p x => dget (gu_slider g) p = Some x) (free_of_list h (om_params om)) xs.
Proof.
  intros om initial n percentile clip pct h args kw moves h' g cls jac hess cons mn uj uh Hwt Hgn Hkw Hs Hmn Hcls.
  destruct (C74_values_follow _ _ _ _ _ _ _ _ _ _ _ _ Hwt Hgn Hkw Hs) as [Hv _].
  destruct (problem_vectors h' cls (om_params om) jac hess cons mn uj uh Hmn) as (E & _).
  exists (map (fun p => p_value (h' p)) (free_of_list h' (om_params om))). split; [rewrite E; destruct cls; congruence|].
  assert (Hf : free_of_list h' (om_params om) = free_of_list h (om_params om)).
  { unfold free_of_list. apply filter_ext_in. intros p Hp. destruct (Hv p Hp) as (_ & _ & _ & _ & _ & ->). reflexivity. }
  rewrite Hf. clear Hf E. assert (Hsub : forall p, In p (free_of_list h (om_params om)) -> In p (om_params om)) by (intros p Hp; apply filter_In in Hp; tauto).
  induction (free_of_list h (om_params om)) as [|p l IH]; cbn [map]; constructor.
  - exact (proj1 (Hv p (Hsub p (or_introl eq_refl)))).
  - apply IH. intros q Hq. exact (Hsub q (or_intror Hq)).
Qed.
Print Assumptions C74_fit_starts_there.

(** The text of the window: every parameter with the value of its slider *)
Theorem C74_printed : forall om initial n percentile clip pct h args kw moves h' g,
  well_typed om -> good_names om [] -> NoDup (dkeys kw) ->
  session om initial n percentile clip pct h args kw moves = Ok (h', g) ->
  Forall2 (fun p line => fst line = sname p /\ dget (gu_slider g) p = Some (snd line)) (om_params om) (guessed om h').
Proof.
  intros om initial n percentile clip pct h args kw moves h' g Hwt Hgn Hkw Hs.
  destruct (C74_values_follow _ _ _ _ _ _ _ _ _ _ _ _ Hwt Hgn Hkw Hs) as [Hv _]. unfold guessed.
  assert (Hsub : forall p, In p (om_params om) -> dget (gu_slider g) p = Some (p_value (h' p))) by (intros p Hp; apply Hv; exact Hp). clear -Hsub.
  induction (om_params om) as [|p l IH]; cbn [map]; constructor; [split; [reflexivity|apply Hsub; left; reflexivity]|].
  apply IH. intros q Hq. apply Hsub; right; exact Hq.
Qed.
Print Assumptions C74_printed.

(** ** C75.  The model is drawn over the range of the data, widened by a tenth of it to both sides; models with
    initial values (ODEModel) only to the right, as they cannot be evaluated before the first. *)
Theorem C75_window : forall om initial n percentile clip pct h args kw moves h' g,
  well_typed om -> good_names om [] -> NoDup (dkeys kw) ->
  session om initial n percentile clip pct h args kw moves = Ok (h', g) ->
  (forall x, In x (om_indep om) -> exists a mn mx, data_of om args kw x = Some a /\ least a mn /\ greatest a mx /\
     dget (gu_xlim g) x = Some ((if initial then mn else mn - / 10 * (mx - mn)), mx + / 10 * (mx - mn))) /\
  (forall y, In y (om_dep om) -> exists a mn mx, data_of om args kw y = Some a /\ least a mn /\ greatest a mx /\
     dget (gu_ylim g) y = Some (mn - / 10 * (mx - mn), mx + / 10 * (mx - mn))).
Proof.
  intros om initial n percentile clip pct h args kw moves h' g Hwt Hgn Hkw Hs.
  destruct (session_spec om initial n percentile clip pct Hwt Hgn h args kw moves h' g Hkw Hs) as ((_ & O2 & O3 & _) & _). split.
  - intros x Hx. destruct (O2 x Hx) as (a & w & Ha & Hw & mn & mx & Hl & Hg & ->). exists a, mn, mx. rewrite Hw. destruct initial; auto.
  - intros y Hy. destruct (O3 y Hy) as (a & w & Ha & Hw & mn & mx & Hl & Hg & ->). exists a, mn, mx. auto.
Qed.
Print Assumptions C75_window.

(** One independent variable: the line drawn for [y] goes through the model at [n] evenly spaced points, evaluated with the
    values of the sliders. *)
Theorem C75_line : forall om initial n percentile clip pct h args kw moves h' g f x y,
  well_typed om -> good_names om [] -> NoDup (dkeys kw) -> pointwise om f -> (0 < n)%nat ->
  session om initial n percentile clip pct h args kw moves = Ok (h', g) ->
  om_indep om = [x] -> In y (om_dep om) ->
  exists pl lo hi, dget (gu_plots g) (x, y) = Some pl /\ dget (gu_xlim g) x = Some (lo, hi) /\
    pl_x pl = map (spaced lo hi n) (seq 0 n) /\ shp (pl_y pl) = [n] /\
    forall i, (i < n)%nat -> val (pl_y pl) [i] = f (point h' [(x, spaced lo hi n i)]) y.
Proof.
  intros om initial n percentile clip pct h args kw moves h' g f x y Hwt Hgn Hkw Hf Hn Hs Hx Hy.
  destruct (session_spec om initial n percentile clip pct Hwt Hgn h args kw moves h' g Hkw Hs) as (Ho & [_ Hu] & _).
  destruct (line_spec om initial n percentile pct Hwt f Hf Hn args kw g h' x y Hx Hy Ho) as (pl & [lo hi] & E1 & _ & E3 & E4 & E5 & E6).
  destruct (Hu (x, y)) as (pl' & E1' & E2'); [|exists pl, lo, hi; rewrite E1 in E1'; injection E1' as <-; auto].
  unfold projections. rewrite Hx. cbn [map concat]. rewrite app_nil_r. apply in_map. exact Hy.
Qed.
Print Assumptions C75_line.

(** Two or more independent variables: in the plot of [y] against [x], the number [k] independent variable, the line goes through
    the averages of the model over all choices of the other variables' points. *)
Theorem C75_average : forall om initial n percentile clip pct h args kw moves h' g f k x y a,
  well_typed om -> good_names om [] -> NoDup (dkeys kw) -> pointwise om f -> (0 < n)%nat ->
  session om initial n percentile clip pct h args kw moves = Ok (h', g) ->
  (2 <= List.length (om_indep om))%nat -> nth_error (om_indep om) k = Some x -> In y (om_dep om) ->
  data_of om args kw x = Some a -> (exists i j, In i (indices (shp a)) /\ In j (indices (shp a)) /\ val a i <> val a j) ->
  exists pl lo hi, dget (gu_plots g) (x, y) = Some pl /\ dget (gu_xlim g) x = Some (lo, hi) /\
    pl_x pl = map (spaced lo hi n) (seq 0 n) /\ shp (pl_y pl) = [n] /\
    forall j choices, (j < n)%nat -> NoDup choices -> (forall c, In c choices <-> choice (List.length (om_indep om)) n k j c) ->
      val (pl_y pl) [j] = Rsum (map (fun c => f (point h' (place (gu_xlim g) n c)) y) choices) / INR (List.length choices).
Proof.
  intros om initial n percentile clip pct h args kw moves h' g f k x y a Hwt Hgn Hkw Hf Hn Hs HK Hk Hy Ha (i & j & Hi & Hj & Hne).
  destruct (session_spec om initial n percentile clip pct Hwt Hgn h args kw moves h' g Hkw Hs) as (Ho & [_ Hu] & _).
  destruct (proj1 (proj2 Ho) x (nth_error_In _ _ Hk)) as (a' & [lo hi] & Ha' & Hw & mn & mx & Hl & Hg & E). rewrite Ha in Ha'. injection Ha' as <-.
  assert (Hlt : lo < hi).
  { pose proof (proj2 Hl i Hi). pose proof (proj2 Hl j Hj). pose proof (proj2 Hg i Hi). pose proof (proj2 Hg j Hj). injection E as -> ->.
    assert (mn < mx) by (destruct (Rtotal_order (val a i) (val a j)) as [?|[?|?]]; [lra|contradiction|lra]). destruct initial; cbn [negb]; lra. }
  destruct (Hu (x, y)) as (pl & E1 & E2).
  { unfold projections. apply in_concat. exists (map (fun y => (x, y)) (om_dep om)). split; [apply in_map_iff; exists x; split; [reflexivity|exact (nth_error_In _ _ Hk)]|].
    apply in_map_iff. eauto. }
  exists pl, lo, hi. split; [exact E2|]. split; [exact Hw|].
  destruct (average_spec om initial n percentile pct Hwt f Hf Hn args kw g h' k x y (lo, hi) pl HK Ho Hk Hy Hw Hlt E1) as (A1 & A2 & A3).
  split; [exact A1|]. split; [exact A2|]. intros jj L Hjj HL HC. destruct (A3 jj L Hjj HL HC) as (ys & l & u & _ & _ & _ & A4 & _). exact A4.
Qed.
Print Assumptions C75_average.

(** The ends of the error bars: the percentiles of those values, plus their average. *)
Theorem C75_error_bars : forall om initial n percentile clip pct h args kw moves h' g f k x y a,
  (forall l l' q, Permutation l l' -> pct l q = pct l' q) ->
  well_typed om -> good_names om [] -> NoDup (dkeys kw) -> pointwise om f -> (0 < n)%nat ->
  session om initial n percentile clip pct h args kw moves = Ok (h', g) ->
  (2 <= List.length (om_indep om))%nat -> nth_error (om_indep om) k = Some x -> In y (om_dep om) ->
  data_of om args kw x = Some a -> (exists i j, In i (indices (shp a)) /\ In j (indices (shp a)) /\ val a i <> val a j) ->
  exists pl, dget (gu_plots g) (x, y) = Some pl /\
    forall j choices, (j < n)%nat -> NoDup choices -> (forall c, In c choices <-> choice (List.length (om_indep om)) n k j c) ->
      let ys := map (fun c => f (point h' (place (gu_xlim g) n c)) y) choices in
      exists low high, pct ys (fst percentile) = Ok low /\ pct ys (snd percentile) = Ok high /\
        nth_error (pl_err pl) j = Some (low + val (pl_y pl) [j], high + val (pl_y pl) [j]).
Proof.
  intros om initial n percentile clip pct h args kw moves h' g f k x y a Hpp Hwt Hgn Hkw Hf Hn Hs HK Hk Hy Ha (i & j & Hi & Hj & Hne).
  destruct (session_spec om initial n percentile clip pct Hwt Hgn h args kw moves h' g Hkw Hs) as (Ho & [_ Hu] & _).
  destruct (proj1 (proj2 Ho) x (nth_error_In _ _ Hk)) as (a' & [lo hi] & Ha' & Hw & mn & mx & Hl & Hg & E). rewrite Ha in Ha'. injection Ha' as <-.
  assert (Hlt : lo < hi).
  { pose proof (proj2 Hl i Hi). pose proof (proj2 Hl j Hj). pose proof (proj2 Hg i Hi). pose proof (proj2 Hg j Hj). injection E as -> ->.
    assert (mn < mx) by (destruct (Rtotal_order (val a i) (val a j)) as [?|[?|?]]; [lra|contradiction|lra]). destruct initial; cbn [negb]; lra. }
  destruct (Hu (x, y)) as (pl & E1 & E2).
  { unfold projections. apply in_concat. exists (map (fun y => (x, y)) (om_dep om)). split; [apply in_map_iff; exists x; split; [reflexivity|exact (nth_error_In _ _ Hk)]|].
    apply in_map_iff. eauto. }
  exists pl. split; [exact E2|].
  destruct (average_spec om initial n percentile pct Hwt f Hf Hn args kw g h' k x y (lo, hi) pl HK Ho Hk Hy Hw Hlt E1) as (A1 & A2 & A3).
  intros jj L Hjj HL HC ys. destruct (A3 jj L Hjj HL HC) as (zs & l & u & P & P1 & P2 & A4 & A5). exists l, u.
  change ys with (map (at_choice n f h' g y) L). rewrite <- (Hpp _ _ (fst percentile) P), <- (Hpp _ _ (snd percentile) P). auto.
Qed.
Print Assumptions C75_error_bars.

(** The window opens, and every slider can be moved anywhere: for models that act pointwise and have variables, given
    data for all of them.  (Matplotlib and scipy drawing the data are not modelled.) *)
Theorem C75_opens : forall om initial n percentile clip pct h args kw moves f,
  (forall l q, l <> [] -> q = fst percentile \/ q = snd percentile -> exists r, pct l q = Ok r) ->
  well_typed om -> good_names om [] -> NoDup (dkeys kw) -> pointwise om f -> (0 < n)%nat ->
  om_indep om <> [] -> om_dep om <> [] -> all_data om args kw -> (forall p v, In (p, v) moves -> In p (om_params om)) ->
  exists h' g, session om initial n percentile clip pct h args kw moves = Ok (h', g).
Proof.
  intros om initial n percentile clip pct h args kw moves f Hpct Hwt Hgn Hkw Hf Hn Hni Hnd Hall Hmv.
  destruct (session_total om initial n percentile clip pct Hwt Hgn f Hf Hn h args kw moves Hni Hnd Hpct Hkw Hall Hmv) as ([h' g] & E). eauto.
Qed.
Print Assumptions C75_opens.

(** Models made from expressions act pointwise (and so show what they mean, C01), if every dependent variable depends, directly or through other components, on an
    independent variable. *)
Theorem C75_symbolic : forall cls simp ord1 ord2 es m sol,
  set_order ord2 -> model_of ord1 es m -> means es sol ->
  (forall y, In y (m_dep m) -> exists x, In x (m_indep m) /\ clos_trans sym (refers (comps (V:=R) es)) y x) ->
  well_typed (om_of cls simp ord2 m) /\ pointwise (om_of cls simp ord2 m) sol.
Proof.
  intros cls simp ord1 ord2 es m sol Ho2 Hm Hsol Hx. split; [exact (symbolic_typed cls simp ord1 ord2 es m Hm)|exact (symbolic_pointwise cls simp ord1 ord2 es m sol Ho2 Hm Hsol Hx)].
Qed.
Print Assumptions C75_symbolic.

(** ** Examples: y = a x + w, with data for w, x and y. *)
Definition gex_es : dict sym expr := [(vy, EAdd (EMul (ESym pa) (ESym vx)) (ESym vw))].
Definition gex_sol (inp : sym -> R) (s : sym) : R := if eq_dec s vy then inp pa * inp vx + inp vw else inp s.
Definition gex_vec : nd := {| shp := [3%nat]; val := fun i => match i with [0%nat] => 1 | [1%nat] => 2 | _ => 3 end |}.
Definition gex_kw : dict string datum := [("y", DArr gex_vec); ("x", DArr gex_vec); ("w", DSeq gex_vec)].
Definition gex_heap (v : R) : heap := fun p => {| p_value := v; p_min := Some (-10); p_max := None; p_fixed := false |}.
Definition gex_clip (lo hi v : R) : R := Rmax lo (Rmin v hi).
Lemma gex_means : means gex_es gex_sol.
Proof.
  intros inp. split.
  - intros k e [Hq|[]]; inv Hq; cbn; reflexivity.
  - intros s Hs. unfold gex_sol. destruct (eq_dec s vy) as [->|]; [|reflexivity]. exfalso. apply Hs. left; reflexivity.
Qed.
Lemma gex_plain : plain_model (comps (V:=R) gex_es).
Proof.
  split.
  - intros k Hk. simpl in Hk. destruct Hk as [<-|[]]; eexists; reflexivity.
  - intros k s Hr. apply refers_list in Hr as (c & Hin & Hs). simpl in Hin.
    destruct Hin as [Hq|[]]; inv Hq; simpl in Hs; decompose [or] Hs; subst; try reflexivity; contradiction.
Qed.
Lemma gex_model : exists m, model_of oid gex_es m /\ m_params m = [pa] /\ m_indep m = [vw; vx] /\ m_dep m = [vy].
Proof.
  destruct (init_model oid (comps (V:=res nd) gex_es)) as [m|x] eqn:Hi; [|vm_compute in Hi; discriminate]. exists m. split.
  - split; [exact oid_ok|]. split; [apply nodupb_iff; vm_compute; reflexivity|]. split; [decide_model|]. split; [decide_model|]. split; [exact gex_plain|].
    split; [|exact Hi]. intros k e [Hq|[]]. injection Hq as <- <-. cbn; repeat split; discriminate.
  - vm_compute in Hi. inversion Hi. split; [reflexivity|]. split; reflexivity.
Qed.
Lemma gex_meets m : model_of oid gex_es m -> m_params m = [pa] -> m_indep m = [vw; vx] -> m_dep m = [vy] ->
  let om := om_of KModel (fun e => e) oid m in
  well_typed om /\ pointwise om gex_sol /\ good_names om [] /\ NoDup (dkeys gex_kw) /\ all_data om [] gex_kw /\ om_indep om <> [] /\ om_dep om <> [] /\
  (forall v, In v [vw; vx; vy] -> data_of om [] gex_kw v = Some gex_vec).
Proof.
  intros Hm E1 E2 E3 om.
  destruct (C75_symbolic KModel (fun e => e) oid oid gex_es m gex_sol oid_ok Hm gex_means) as [W1 W2].
  { rewrite E3, E2. intros y [<-|[]]. exists vx. split; [right; left; reflexivity|]. apply t_step. eexists. split; [left; reflexivity|]. left. simpl. auto. }
  assert (Ei : om_indep om = [vw; vx]) by exact E2. assert (Ed : om_dep om = [vy]) by exact E3.
  assert (En : argument_names om [] = ["w"; "x"; "y"; sname (sigma_of vy)]) by (unfold argument_names; rewrite Ei, Ed; vm_compute; reflexivity).
  assert (Hdata : forall v, In v [vw; vx; vy] -> data_of om [] gex_kw v = Some gex_vec).
  { intros v Hv. unfold data_of, data_for. rewrite En. destruct Hv as [<-|[<-|[<-|[]]]]; reflexivity. }
  split; [exact W1|]. split; [exact W2|]. split; [|split; [|split; [|split; [|split; [|exact Hdata]]]]].
  - unfold good_names. rewrite En, Ei, Ed. split; [apply nodupb_iff; vm_compute; reflexivity|]. split; [intros c []|]. apply nodupb_iff; vm_compute; reflexivity.
  - apply nodupb_iff; reflexivity.
  - unfold all_data. rewrite En, Ei, Ed. split; [|split].
    + split; [simpl; lia|]. split; [apply nodupb_iff; reflexivity|]. split; [intros ? []|]. intros nm [<-|[<-|[<-|[]]]]; cbn; auto.
    + intros v Hv. exists gex_vec. split; [|cbn; intros [Q|[]]; discriminate]. unfold data_for. rewrite En. destruct Hv as [<-|[<-|[<-|[]]]]; reflexivity.
    + intros v [<-|[]]. unfold spreadable, data_for. rewrite En. cbn. exact I.
  - rewrite Ei; discriminate.
  - rewrite Ed; discriminate.
Qed.

(** A value of -3 with minimum -10: -6 after opening the window; the sliders can be moved. *)
Example C74_example : forall pct, (forall l q, l <> [] -> exists r, pct l q = Ok r) ->
  exists m h1 g1 h2 g2, let om := om_of KModel (fun e => e) oid m in
    well_typed om /\ good_names om [] /\ NoDup (dkeys gex_kw) /\ om_params om = [pa] /\
    session om false 50 (5, 95) gex_clip pct (gex_heap (-3)) [] gex_kw [] = Ok (h1, g1) /\ p_value (h1 pa) = -6 /\
    session om false 50 (5, 95) gex_clip pct (gex_heap (-3)) [] gex_kw [(pa, -8); (pa, -7)] = Ok (h2, g2) /\ p_value (h2 pa) = -7.
Proof.
  intros pct Hpct. destruct gex_model as (m & Hm & E1 & E2 & E3). destruct (gex_meets m Hm E1 E2 E3) as (W & P & G & N & A & I & D & _).
  set (om := om_of KModel (fun e => e) oid m) in *.
  destruct (C75_opens om false 50 (5, 95) gex_clip pct (gex_heap (-3)) [] gex_kw [] gex_sol (fun l q Hl _ => Hpct l q Hl) W G N P ltac:(lia) I D A ltac:(intros p v [])) as (h1 & g1 & S1).
  destruct (C75_opens om false 50 (5, 95) gex_clip pct (gex_heap (-3)) [] gex_kw [(pa, -8); (pa, -7)] gex_sol (fun l q Hl _ => Hpct l q Hl) W G N P ltac:(lia) I D A) as (h2 & g2 & S2).
  { intros p v Hv. change (om_params om) with (m_params m). rewrite E1. destruct Hv as [Q|[Q|[]]]; injection Q as <- _; left; reflexivity. }
  assert (Hp : In pa (om_params om)) by (change (om_params om) with (m_params m); rewrite E1; left; reflexivity).
  exists m, h1, g1, h2, g2. cbv zeta. split; [exact W|]. split; [exact G|]. split; [exact N|]. split; [exact E1|]. split; [exact S1|]. split; [|split; [exact S2|]].
  - destruct (C74_values_follow om _ _ _ _ _ _ _ _ _ _ _ W G N S1) as [V _]. destruct (V pa Hp) as (_ & _ & V3 & _). destruct (V3 eq_refl) as (lo & hi & L & ->).
    destruct (C74_sliders om _ _ _ _ _ _ _ _ _ _ _ W G N S1 pa Hp) as (lo' & hi' & v & L' & _ & Q1 & _ & _ & Q4). rewrite L in L'. injection L' as <- <-.
    rewrite (Q1 _ eq_refl), (Q4 eq_refl). unfold gex_clip, gex_heap. cbn [p_value]. rewrite Rmin_right, Rmax_right by lra. lra.
  - destruct (C74_values_follow om _ _ _ _ _ _ _ _ _ _ _ W G N S2) as [V _]. destruct (V pa Hp) as (_ & V2 & _). apply V2. unfold last_move. destruct (eq_dec pa pa); [reflexivity|congruence].
Qed.

(** The error bars need not contain any of the values they are to describe: for [np.percentile] between the smallest and the
    largest value, the bar drawn at w = 0.8 lies above all values of the model there. *)
Theorem C75_error_bars_refuted : forall pct,
  (forall l l' q, Permutation l l' -> pct l q = pct l' q) -> (forall l q, l <> [] -> exists r, pct l q = Ok r) ->
  (forall l q r lo, pct l q = Ok r -> (forall y, In y l -> lo <= y) -> lo <= r) ->
  exists m h' g pl low high, let om := om_of KModel (fun e => e) oid m in
    well_typed om /\ pointwise om gex_sol /\
    session om false 2 (5, 95) gex_clip pct (gex_heap 1) [] gex_kw [] = Ok (h', g) /\
    nth_error (om_indep om) 0 = Some vw /\ dget (gu_plots g) (vw, vy) = Some pl /\ nth_error (pl_err pl) 0 = Some (low, high) /\
    forall c, choice 2 2 0 0 c -> gex_sol (point h' (place (gu_xlim g) 2 c)) vy < low /\ gex_sol (point h' (place (gu_xlim g) 2 c)) vy < high.
Proof.
  intros pct Hperm Hpct Hlow. destruct gex_model as (m & Hm & E1 & E2 & E3). destruct (gex_meets m Hm E1 E2 E3) as (W & P & G & N & A & I & D & Hdata).
  set (om := om_of KModel (fun e => e) oid m) in *.
  destruct (C75_opens om false 2 (5, 95) gex_clip pct (gex_heap 1) [] gex_kw [] gex_sol (fun l q Hl _ => Hpct l q Hl) W G N P ltac:(lia) I D A ltac:(intros p v [])) as (h' & g & S).
  assert (Ei : om_indep om = [vw; vx]) by exact E2. assert (Ed : om_dep om = [vy]) by exact E3.
  assert (HK : List.length (om_indep om) = 2%nat) by (rewrite Ei; reflexivity).
  assert (Hk : nth_error (om_indep om) 0 = Some vw) by (rewrite Ei; reflexivity).
  assert (Hy : In vy (om_dep om)) by (rewrite Ed; left; reflexivity).
  assert (Hdiff : exists i j, In i (indices (shp gex_vec)) /\ In j (indices (shp gex_vec)) /\ val gex_vec i <> val gex_vec j).
  { exists [0%nat], [1%nat]. split; [cbn; auto|]. split; [cbn; auto|]. cbn. lra. }
  assert (Hd0 : data_of om [] gex_kw vw = Some gex_vec) by (apply Hdata; left; reflexivity).
  destruct (C75_error_bars om false 2 (5, 95) gex_clip pct _ _ _ _ _ _ gex_sol 0 vw vy gex_vec Hperm W G N P ltac:(lia) S ltac:(rewrite HK; lia) Hk Hy Hd0 Hdiff) as (pl & Hpl & Hbar).
  destruct (C75_average om false 2 (5, 95) gex_clip pct _ _ _ _ _ _ gex_sol 0 vw vy gex_vec W G N P ltac:(lia) S ltac:(rewrite HK; lia) Hk Hy Hd0 Hdiff) as (pl' & _ & _ & Hpl' & _ & _ & _ & Hav).
  rewrite Hpl in Hpl'. injection Hpl' as <-.
  assert (HL : NoDup [[0%nat; 0%nat]; [0%nat; 1%nat]]) by (apply nodupb_iff; reflexivity).
  assert (HC : forall c, In c [[0%nat; 0%nat]; [0%nat; 1%nat]] <-> choice (List.length (om_indep om)) 2 0 0 c).
  { rewrite HK. intros c. split.
    - intros [<-|[<-|[]]]; (split; [reflexivity|]; split; [intros i Hi; cbn in Hi; lia|reflexivity]).
    - intros (C1 & C2 & C3). destruct c as [|a [|b [|]]]; try discriminate. injection C3 as ->. assert (b < 2)%nat by (apply C2; right; left; reflexivity).
      destruct b as [|[|]]; [left; reflexivity|right; left; reflexivity|lia]. }
  destruct (Hbar 0%nat _ ltac:(lia) HL HC) as (low & high & P1 & P2 & Eb). specialize (Hav 0%nat _ ltac:(lia) HL HC).
  destruct (C75_window om _ _ _ _ _ _ _ _ _ _ _ W G N S) as [Hwin _].
  assert (Hx : forall v, In v [vw; vx] -> dget (gu_xlim g) v = Some (8 / 10, 32 / 10)).
  { intros v Hv. destruct (Hwin v ltac:(rewrite Ei; exact Hv)) as (a & mn & mx & Ha & Hl & Hg & ->).
    assert (Hvd : data_of om [] gex_kw v = Some gex_vec) by (apply Hdata; destruct Hv as [<-|[<-|[]]]; cbn; auto). rewrite Hvd in Ha. injection Ha as <-.
    assert (mn = 1). { destruct Hl as [(i & Hi & <-) Hl]. apply Rle_antisym; [apply (Hl [0%nat]); cbn; auto|]. destruct Hi as [<-|[<-|[<-|[]]]]; cbn; lra. }
    assert (mx = 3). { destruct Hg as [(i & Hi & <-) Hg]. apply Rle_antisym; [destruct Hi as [<-|[<-|[<-|[]]]]; cbn; lra|apply (Hg [2%nat]); cbn; auto]. }
    subst. do 2 f_equal; lra. }
  assert (Hkeys : dkeys (gu_xlim g) = [vw; vx]).
  { destruct (session_spec om false 2 (5, 95) gex_clip pct W G _ _ _ _ _ _ N S) as (Ho & _). rewrite <- Ei. apply Ho. }
  assert (Exl : gu_xlim g = [(vw, (8 / 10, 32 / 10)); (vx, (8 / 10, 32 / 10))]).
  { pose proof (Hx vw ltac:(left; reflexivity)) as X1. pose proof (Hx vx ltac:(right; left; reflexivity)) as X2. destruct (gu_xlim g) as [|[k1 w1] [|[k2 w2] [|]]]; try discriminate.
    cbn in Hkeys. apply (f_equal (fun l => (nth 0 l vy, nth 1 l vy))) in Hkeys. cbn [nth] in Hkeys. assert (Hk1 : k1 = vw) by congruence. assert (Hk2 : k2 = vx) by congruence. subst k1 k2.
    cbn -[eq_dec] in X1, X2. destruct (eq_dec vw vw); [|congruence]. destruct (eq_dec vx vw) as [Q|_]; [discriminate Q|]. destruct (eq_dec vx vx); [|congruence]. congruence. }
  assert (Hpa : p_value (h' pa) = 1).
  { assert (Hkeep : h' pa = gex_heap 1 pa); [|rewrite Hkeep; reflexivity].
    apply (C74_guess_kept om false 2%nat (5, 95) gex_clip pct (gex_heap 1) [] gex_kw [] h' g pa); try assumption; try reflexivity.
    - intros lo hi v [H1 H2]. unfold gex_clip. rewrite Rmin_left, Rmax_right by lra. reflexivity.
    - change (om_params om) with (m_params m). rewrite E1. left; reflexivity.
    - intros l El. cbn in El. injection El as <-. cbn. lra.
    - intros u Eu. discriminate Eu.
    - left. cbn. lra. }
  assert (Hf : forall c, gex_sol (point h' c) vy = 1 * point h' c vx + point h' c vw).
  { intros c. unfold gex_sol. destruct (eq_dec vy vy); [|congruence]. change (point h' c pa) with (p_value (h' pa)). rewrite Hpa. reflexivity. }
  assert (Hw : forall b, point h' (place (gu_xlim g) 2 [0%nat; b]) vw = 8 / 10).
  { intros b. rewrite Exl. unfold point, place. cbn -[spaced]. unfold spaced. simpl INR. lra. }
  assert (Hxv : point h' (place (gu_xlim g) 2 [0%nat; 0%nat]) vx = 8 / 10 /\ point h' (place (gu_xlim g) 2 [0%nat; 1%nat]) vx = 32 / 10).
  { rewrite Exl. unfold point, place. cbn -[spaced]. unfold spaced. simpl INR. split; lra. }
  destruct Hxv as [Hx0 Hx1]. cbn [map Rsum List.length] in Hav. rewrite !Hf, !Hw, Hx0, Hx1 in Hav.
  assert (Hav' : val (pl_y pl) [0%nat] = 28 / 10) by (rewrite Hav; simpl INR; lra).
  rewrite Hav' in Eb. cbn [map] in P1, P2.
  assert (Hlo : forall r q, pct [gex_sol (point h' (place (gu_xlim g) 2 [0%nat; 0%nat])) vy; gex_sol (point h' (place (gu_xlim g) 2 [0%nat; 1%nat])) vy] q = Ok r -> 16 / 10 <= r).
  { intros r q Hr. apply (Hlow _ _ _ _ Hr). intros y [<-|[<-|[]]]; rewrite Hf, Hw, ?Hx0, ?Hx1; lra. }
  apply Hlo in P1, P2. exists m, h', g, pl, (low + 28 / 10), (high + 28 / 10). cbv zeta. split; [exact W|]. split; [exact P|]. split; [exact S|]. split; [exact Hk|]. split; [exact Hpl|]. split; [exact Eb|].
  intros c Hc. rewrite HK in HC. apply HC in Hc. destruct Hc as [<-|[<-|[]]]; rewrite Hf, Hw, ?Hx0, ?Hx1; lra.
Qed.
Print Assumptions C75_error_bars_refuted.

(** y = a x, data from 1 to 3: after moving the slider to 5 the line goes from (0.8, 4) over (2, 10) to (3.2, 16). *)
Definition gex1_es : dict sym expr := [(vy, EMul (ESym pa) (ESym vx))].
Definition gex1_sol (inp : sym -> R) (s : sym) : R := if eq_dec s vy then inp pa * inp vx else inp s.
Example C75_line_example : forall pct,
  exists m h' g pl, let om := om_of KModel (fun e => e) oid m in
    well_typed om /\ good_names om [] /\ pointwise om gex1_sol /\ om_indep om = [vx] /\ In vy (om_dep om) /\
    session om false 3 (5, 95) gex_clip (fun l q => Ok (pct l q)) (gex_heap 1) [DArr gex_vec] [("y", DArr gex_vec)] [(pa, 5)] = Ok (h', g) /\
    dget (gu_plots g) (vx, vy) = Some pl /\ pl_x pl = [8 / 10; 2; 32 / 10] /\ shp (pl_y pl) = [3%nat] /\
    val (pl_y pl) [0%nat] = 4 /\ val (pl_y pl) [1%nat] = 10 /\ val (pl_y pl) [2%nat] = 16.
Proof.
  intros pct. assert (Hmeans : means gex1_es gex1_sol).
  { intros inp. split.
    - intros k e [Hq|[]]; inv Hq; cbn; reflexivity.
    - intros s Hs. unfold gex1_sol. destruct (eq_dec s vy) as [->|]; [|reflexivity]. exfalso. apply Hs. left; reflexivity. }
  assert (Hplain : plain_model (comps (V:=R) gex1_es)).
  { split.
    - intros k Hk. simpl in Hk. destruct Hk as [<-|[]]; eexists; reflexivity.
    - intros k s Hr. apply refers_list in Hr as (c & Hin & Hs). simpl in Hin.
      destruct Hin as [Hq|[]]; inv Hq; simpl in Hs; decompose [or] Hs; subst; try reflexivity; contradiction. }
  destruct (init_model oid (comps (V:=res nd) gex1_es)) as [m|x] eqn:Hi; [|vm_compute in Hi; discriminate].
  assert (Hm : model_of oid gex1_es m).
  { split; [exact oid_ok|]. split; [apply nodupb_iff; vm_compute; reflexivity|]. split; [decide_model|]. split; [decide_model|]. split; [exact Hplain|].
    split; [|exact Hi]. intros k e [Hq|[]]. injection Hq as <- <-. cbn; repeat split; discriminate. }
  assert (E1 : m_params m = [pa]) by (vm_compute in Hi; inversion Hi; reflexivity).
  assert (E2 : m_indep m = [vx]) by (vm_compute in Hi; inversion Hi; reflexivity).
  assert (E3 : m_dep m = [vy]) by (vm_compute in Hi; inversion Hi; reflexivity). clear Hi.
  destruct (C75_symbolic KModel (fun e => e) oid oid gex1_es m gex1_sol oid_ok Hm Hmeans) as [W P].
  { rewrite E3, E2. intros y [<-|[]]. exists vx. split; [left; reflexivity|]. apply t_step. eexists. split; [left; reflexivity|]. left. simpl. auto. }
  set (om := om_of KModel (fun e => e) oid m) in *.
  assert (Ei : om_indep om = [vx]) by exact E2. assert (Ed : om_dep om = [vy]) by exact E3.
  assert (En : argument_names om [] = ["x"; "y"; sname (sigma_of vy)]) by (unfold argument_names; rewrite Ei, Ed; vm_compute; reflexivity).
  assert (G : good_names om []).
  { unfold good_names. rewrite En, Ei, Ed. split; [apply nodupb_iff; vm_compute; reflexivity|]. split; [intros c []|]. apply nodupb_iff; vm_compute; reflexivity. }
  set (args := [DArr gex_vec]). set (kw := [("y", DArr gex_vec)]).
  assert (N : NoDup (dkeys kw)) by (apply nodupb_iff; reflexivity).
  assert (A : all_data om args kw).
  { unfold all_data. rewrite En, Ei, Ed. split; [|split].
    - split; [simpl; lia|]. split; [exact N|]. split; [intros nm [<-|[]] [Q|[]]; discriminate Q|]. intros nm [<-|[]]; cbn; auto.
    - intros v Hv. exists gex_vec. split; [|cbn; intros [Q|[]]; discriminate]. unfold data_for. rewrite En. destruct Hv as [<-|[<-|[]]]; reflexivity.
    - intros v [<-|[]]. unfold spreadable, data_for. rewrite En. cbn. exact I. }
  assert (Hp : In pa (om_params om)) by (change (om_params om) with (m_params m); rewrite E1; left; reflexivity).
  destruct (C75_opens om false 3 (5, 95) gex_clip (fun l q => Ok (pct l q)) (gex_heap 1) args kw [(pa, 5)] gex1_sol ltac:(eauto) W G N P ltac:(lia)) as (h' & g & S).
  { rewrite Ei; discriminate. } { rewrite Ed; discriminate. } { exact A. } { intros p v [Q|[]]. injection Q as <- _. exact Hp. }
  assert (Hy : In vy (om_dep om)) by (rewrite Ed; left; reflexivity).
  destruct (C75_line om false 3 (5, 95) gex_clip _ _ _ _ _ _ _ gex1_sol vx vy W G N P ltac:(lia) S Ei Hy) as (pl & lo & hi & L1 & L2 & L3 & L4 & L5).
  exists m, h', g, pl. cbv zeta. split; [exact W|]. split; [exact G|]. split; [exact P|]. split; [exact Ei|]. split; [exact Hy|]. split; [exact S|]. split; [exact L1|].
  destruct (C75_window om _ _ _ _ _ _ _ _ _ _ _ W G N S) as [Hwin _]. destruct (Hwin vx ltac:(rewrite Ei; left; reflexivity)) as (a & mn & mx & Ha & Hl & Hg & Ew).
  assert (Hvd : data_of om args kw vx = Some gex_vec) by (unfold data_of, data_for; rewrite En; reflexivity). rewrite Hvd in Ha. injection Ha as <-.
  assert (mn = 1). { destruct Hl as [(i & Hi & <-) Hl]. apply Rle_antisym; [apply (Hl [0%nat]); cbn; auto|]. destruct Hi as [<-|[<-|[<-|[]]]]; cbn; lra. }
  assert (mx = 3). { destruct Hg as [(i & Hi & <-) Hg]. apply Rle_antisym; [destruct Hi as [<-|[<-|[<-|[]]]]; cbn; lra|apply (Hg [2%nat]); cbn; auto]. }
  rewrite L2 in Ew. injection Ew as Elo Ehi. subst mn mx.
  assert (Hpa : p_value (h' pa) = 5).
  { destruct (C74_values_follow om _ _ _ _ _ _ _ _ _ _ _ W G N S) as [V _]. destruct (V pa Hp) as (_ & V2 & _). apply V2. unfold last_move. destruct (eq_dec pa pa); [reflexivity|congruence]. }
  assert (Hf : forall t, gex1_sol (point h' [(vx, t)]) vy = 5 * t).
  { intros t. unfold gex1_sol. destruct (eq_dec vy vy); [|congruence]. change (point h' [(vx, t)] pa) with (p_value (h' pa)). rewrite Hpa. reflexivity. }
  split; [rewrite L3; cbn [seq map]; unfold spaced; simpl INR; rewrite Elo, Ehi; repeat (f_equal; try lra)|]. split; [exact L4|].
  rewrite !L5 by lia. rewrite !Hf. unfold spaced. simpl INR. rewrite Elo, Ehi. repeat split; lra.
Qed.
