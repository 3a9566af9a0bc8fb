(** * GuessMain: what an InteractiveGuess window shows. *)
From Coq Require Import Reals Lra Lia Permutation FunctionalExtensionality.
From Verif Require Import PyBase PyFacts Signature SignatureFacts Expr NumPy NumFacts Model ModelSpec Objective ObjSpec ObjFacts Fit FitSpec FitFacts FitData ExprCallFacts Guess GuessSpec GuessFacts.
Local Open Scope R_scope.
Local Open Scope string_scope.
Local Open Scope list_scope.

Lemma indices1 N : indices [N] = map (fun i => [i]) (seq 0 N).
Proof. cbn [indices flat_map]. apply app_nil_r. Qed.
Lemma values1 a N : shp a = [N] -> values a = map (fun t => val a [t]) (seq 0 N).
Proof. intros H. unfold values. rewrite H, indices1, map_map. reflexivity. Qed.
Lemma map_nth_seq {A B} (d : A) (g : A -> B) l : map (fun t => g (nth t l d)) (seq 0 (List.length l)) = map g l.
Proof.
  rewrite <- (map_map (fun t => nth t l d) g). f_equal. induction l as [|a l IH]; [reflexivity|]. cbn [List.length seq map nth]. f_equal. rewrite <- seq_shift, map_map. exact IH.
Qed.
Lemma NoDup_indices s : NoDup (indices s).
Proof.
  induction s as [|d s IH]; cbn [indices]; [repeat constructor; intros []|].
  induction IH as [|o l Ho _ IHl]; cbn [flat_map]; [constructor|]. apply ObjFacts.NoDup_app_intro.
  - apply FinFun.Injective_map_NoDup; [intros a b E; congruence|apply seq_NoDup].
  - exact IHl.
  - intros x Hx Hy. apply in_map_iff in Hx as (i & <- & _). apply in_flat_map in Hy as (o' & Ho' & Hx). apply in_map_iff in Hx as (i' & E & _). injection E as _ ->. contradiction.
Qed.
Lemma in_indices_rep n K j : In j (indices (repeat n K)) <-> List.length j = K /\ forall i, In i j -> (i < n)%nat.
Proof.
  rewrite in_indices. split.
  - intros H. split.
    + revert H. revert j. induction K as [|K IH]; intros j H; inversion H; subst; [reflexivity|]. cbn. f_equal. apply IH; assumption.
    + revert H. revert j. induction K as [|K IH]; intros j H i Hi; inversion H; subst; [destruct Hi|]. destruct Hi as [<-|Hi]; [assumption|]. eapply IH; eassumption.
  - intros [<- H]. induction j as [|a j IH]; cbn; constructor; [apply H; left; reflexivity|]. apply IH. intros i Hi. apply H; right; exact Hi.
Qed.
Lemma nth_linspace lo hi n i : (i < n)%nat -> nth i (linspace lo hi n) 0 = spaced lo hi n i.
Proof.
  intros H. unfold linspace. rewrite (nth_indep _ 0 (lo + INR 0 * ((hi - lo) / INR (n - 1)))) by (rewrite map_length, seq_length; exact H).
  rewrite (map_nth (fun i => lo + INR i * ((hi - lo) / INR (n - 1)))), seq_nth by exact H. reflexivity.
Qed.
Lemma spaced_inj lo hi n i j : lo < hi -> (i < n)%nat -> (j < n)%nat -> spaced lo hi n i = spaced lo hi n j -> i = j.
Proof.
  intros Hl Hi Hj E. destruct (Nat.eq_dec n 1) as [->|Hn]; [lia|]. unfold spaced in E.
  assert (Hp : 0 < INR (n - 1)) by (apply lt_0_INR; lia). assert (Hq : (hi - lo) / INR (n - 1) <> 0).
  { apply Rgt_not_eq. apply Rdiv_lt_0_compat; lra. }
  apply INR_eq. apply (Rmult_eq_reg_r ((hi - lo) / INR (n - 1))); [lra|exact Hq].
Qed.

(** ** the axes of meshgrid *)
Definition swap (i : nat) : nat := match i with 0 => 1 | 1 => 0 | _ => i end%nat.
Lemma swap_swap i : swap (swap i) = i. Proof. destruct i as [|[|i]]; reflexivity. Qed.
Lemma swap_lt K i : (2 <= K)%nat -> (i < K)%nat -> (swap i < K)%nat. Proof. destruct i as [|[|i]]; cbn; lia. Qed.
Lemma axis_swap K i : (2 <= K)%nat -> axis_of K i = (K - 1 - swap i)%nat.
Proof. intros H. unfold axis_of. destruct (Nat.ltb_spec K 2); [lia|reflexivity]. Qed.
Definition unaxis (K a : nat) : nat := swap (K - 1 - a).
Lemma unaxis_lt K a : (2 <= K)%nat -> (a < K)%nat -> (unaxis K a < K)%nat. Proof. intros H1 H2. apply swap_lt; lia. Qed.
Lemma axis_lt K i : (2 <= K)%nat -> (i < K)%nat -> (axis_of K i < K)%nat.
Proof. intros H1 H2. rewrite axis_swap by exact H1. lia. Qed.
Lemma axis_un K a : (2 <= K)%nat -> (a < K)%nat -> axis_of K (unaxis K a) = a.
Proof. intros H1 H2. rewrite axis_swap by exact H1. unfold unaxis. rewrite swap_swap. lia. Qed.
Lemma un_axis K i : (2 <= K)%nat -> (i < K)%nat -> unaxis K (axis_of K i) = i.
Proof. intros H1 H2. rewrite axis_swap by exact H1. unfold unaxis. pose proof (swap_lt K i H1 H2). replace (K - 1 - (K - 1 - swap i))%nat with (swap i) by lia. apply swap_swap. Qed.
Definition chosen (K : nat) (j : list nat) : list nat := map (fun i => nth (axis_of K i) j 0%nat) (seq 0 K).
Lemma nth_map_seq (g : nat -> nat) K i : (i < K)%nat -> nth i (map g (seq 0 K)) 0%nat = g i.
Proof. intros H. rewrite (nth_indep _ 0%nat (g 0%nat)) by (rewrite map_length, seq_length; exact H). rewrite map_nth, seq_nth by exact H. reflexivity. Qed.
Lemma nth_error_map_seq {A} (g : nat -> A) K i : nth_error (map g (seq 0 K)) i = if Nat.ltb i K then Some (g i) else None.
Proof.
  rewrite nth_error_map. destruct (Nat.ltb_spec i K) as [H|H].
  - rewrite (nth_error_nth' _ 0%nat) by (rewrite seq_length; exact H). rewrite seq_nth by exact H. reflexivity.
  - rewrite (proj2 (nth_error_None _ _)) by (rewrite seq_length; exact H). reflexivity.
Qed.

Lemma chosen_perm n K k jj L : (2 <= K)%nat -> (k < K)%nat -> NoDup L -> (forall c, In c L <-> choice K n k jj c) ->
  Permutation (map (chosen K) (filter (fun j => Nat.eqb (nth (axis_of K k) j 0%nat) jj) (indices (repeat n K)))) L.
Proof.
  intros HK Hk HL HC. apply NoDup_Permutation; [|exact HL|].
  - assert (Hinj : forall l, (forall j, In j l -> In j (indices (repeat n K))) -> NoDup l -> NoDup (map (chosen K) l)).
    { induction l as [|j l IH]; intros Hl Hnd; cbn; [constructor|]. inversion Hnd; subst. constructor; [|apply IH; [intros; apply Hl; right; assumption|assumption]].
      intros Hin. apply in_map_iff in Hin as (j' & E & Hj'). apply H1. assert (j = j'); [|subst; exact Hj'].
      pose proof (proj1 (in_indices_rep n K j) (Hl j (or_introl eq_refl))) as [L1 _]. pose proof (proj1 (in_indices_rep n K j') (Hl j' (or_intror Hj'))) as [L2 _].
      apply (nth_ext _ _ 0%nat 0%nat); [congruence|]. intros a Ha. rewrite L1 in Ha.
      apply (f_equal (fun l => nth (unaxis K a) l 0%nat)) in E. unfold chosen in E. rewrite !nth_map_seq in E by (apply unaxis_lt; assumption).
      rewrite !axis_un in E by assumption. congruence. }
    apply Hinj; [intros j Hj; apply filter_In in Hj; tauto|apply NoDup_filter, NoDup_indices].
  - intros c. rewrite HC. split.
    + intros Hin. apply in_map_iff in Hin as (j & <- & Hj). apply filter_In in Hj as [Hj He]. apply Nat.eqb_eq in He. apply in_indices_rep in Hj as [L1 L2].
      split; [unfold chosen; rewrite map_length, seq_length; reflexivity|]. split.
      * intros i Hi. apply in_map_iff in Hi as (a & <- & Ha). apply in_seq in Ha. apply L2. apply nth_In. rewrite L1. apply axis_lt; lia.
      * unfold chosen. rewrite nth_error_map_seq. destruct (Nat.ltb_spec k K); [congruence|lia].
    + intros (C1 & C2 & C3). set (j := map (fun a => nth (unaxis K a) c 0%nat) (seq 0 K)).
      assert (Hlj : List.length j = K) by (unfold j; rewrite map_length, seq_length; reflexivity).
      assert (Hj : forall i, (i < K)%nat -> nth (axis_of K i) j 0%nat = nth i c 0%nat).
      { intros i Hi. unfold j. rewrite (nth_map_seq (fun a => nth (unaxis K a) c 0%nat)) by (apply axis_lt; assumption). rewrite un_axis by assumption. reflexivity. }
      apply in_map_iff. exists j. split.
      * apply (nth_ext _ _ 0%nat 0%nat); [unfold chosen; rewrite map_length, seq_length; congruence|]. intros i Hi. unfold chosen in Hi. rewrite map_length, seq_length in Hi.
        unfold chosen. rewrite (nth_map_seq (fun i => nth (axis_of K i) j 0%nat)) by exact Hi. apply Hj; exact Hi.
      * apply filter_In. split; [apply in_indices_rep; split; [exact Hlj|]|].
        -- intros i Hi. apply in_map_iff in Hi as (a & <- & Ha). apply in_seq in Ha. apply C2. apply nth_In. rewrite C1. apply unaxis_lt; lia.
        -- apply Nat.eqb_eq. rewrite Hj by exact Hk. apply nth_error_nth with (d := 0%nat) in C3. exact C3.
Qed.
Lemma masked_map {A} (F G : A -> R) l x : masked (map F l) (map G l) x = map G (filter (fun j => if Req_EM_T (F j) x then true else false) l).
Proof.
  unfold masked. induction l as [|a l IH]; [reflexivity|]. cbn [map combine filter fst]. destruct (Req_EM_T (F a) x); cbn [map snd]; rewrite IH; reflexivity.
Qed.

Section Shows.
  Context (om : omodel) (initial : bool) (n : nat) (percentile : R * R) (clip : R -> R -> R -> R) (pct : list R -> R -> res R).
  Hypothesis Hwt : well_typed om.
  Hypothesis Hgn : good_names om [].
  Notation ps := (om_params om).
  Notation K := (List.length (om_indep om)).
  Notation sh := (repeat n K).
  Notation session := (session om initial n percentile clip pct).
  Notation opened := (opened om initial n).
  Notation up_to_date := (up_to_date om percentile pct).

  Lemma session_spec h args kw moves h' g : NoDup (dkeys kw) -> session h args kw moves = Ok (h', g) ->
    opened args kw g /\ up_to_date h' g /\
    (forall p, In p ps -> dget (gu_limits g) p = Some (slider_limits (h p)) /\
       h' p = with_p_value (h p) (match last_move moves p with Some v => v | None => clip (fst (slider_limits (h p))) (snd (slider_limits (h p))) (p_value (h p)) end)) /\
    (forall p, ~ In p ps -> h' p = h p).
  Proof using Hwt Hgn.
    intros Hkw. unfold Guess.session. destruct (guess_init om initial n percentile clip pct h args kw) as [[h0 g0]|] eqn:Ei; [|discriminate]. cbn [bind]. intros Hm.
    destruct (init_spec om initial n percentile clip pct Hwt Hgn h args kw h0 g0 Hkw Ei) as (I1 & I2 & I3 & I4).
    destruct (moves_spec om percentile pct moves h0 g0 h' g Hm I2) as (M1 & M2 & M3 & M4).
    split; [eapply opened_same; eassumption|]. split; [exact M2|]. split.
    - intros p Hp. destruct (I3 p Hp) as [L1 L2]. destruct M1 as (_ & _ & _ & _ & M5). rewrite M5. split; [exact L1|].
      rewrite (M3 p Hp), L2. unfold with_p_value. cbn [p_value p_min p_max p_fixed]. destruct (last_move moves p); reflexivity.
    - intros p Hp. rewrite (M4 p Hp). apply I4; exact Hp.
  Qed.

  Context (f : (sym -> R) -> sym -> R).
  Hypothesis Hf : pointwise om f.
  Hypothesis Hn : (0 < n)%nat.

  Lemma coords_place xl (g : nat -> nat) : dkeys xl = om_indep om -> (forall i, (i < K)%nat -> (g i < n)%nat) ->
    combine (om_indep om) (map (fun i => nth (g i) (nth i (columns n xl) []) 0) (seq 0 K)) = place xl n (map g (seq 0 K)).
  Proof using Hn.
    intros Hk Hg. assert (Hl : List.length xl = K) by (rewrite <- Hk; unfold dkeys; rewrite map_length; reflexivity).
    apply nth_ext_error. intros i. unfold place. rewrite nth_error_map, !nth_error_combine, !nth_error_map_seq.
    rewrite <- Hk at 1. unfold dkeys. rewrite nth_error_map.
    destruct (Nat.ltb_spec i K) as [Hi|Hi].
    - destruct (nth_error xl i) as [[v w]|] eqn:Ex; [|exfalso; apply nth_error_None in Ex; lia]. cbn [option_map fst snd].
      do 2 f_equal. assert (Ec : nth i (columns n xl) [] = linspace (fst w) (snd w) n).
      { apply nth_error_nth. unfold columns. rewrite !nth_error_map, Ex. reflexivity. }
      rewrite Ec. apply nth_linspace. apply Hg; exact Hi.
    - rewrite (proj2 (nth_error_None xl i)) by lia. reflexivity.
  Qed.
  Lemma coords_chosen xl c j : dkeys xl = om_indep om -> c = columns n xl -> In j (indices sh) -> combine (om_indep om) (coords c j) = place xl n (chosen K j).
  Proof using Hn.
    intros Hk -> Hj. assert (Hl : List.length (columns n xl) = K) by (unfold columns; rewrite !map_length, <- Hk; unfold dkeys; rewrite map_length; reflexivity).
    unfold coords. rewrite Hl. unfold chosen. apply (coords_place xl (fun i => nth (axis_of K i) j 0%nat) Hk).
    intros i Hi. apply in_indices_rep in Hj as [L1 L2]. destruct (le_lt_dec K (axis_of K i)) as [H|H].
    - rewrite nth_overflow by lia. exact Hn.
    - apply L2. apply nth_In. lia.
  Qed.

  Lemma point_at args kw g h : opened args kw g -> exists r, eval_model om h (gu_grid g) = Ok r /\ forall y, In y (om_dep om) -> exists a, output_of r y = Ok a /\ shp a = [List.length (indices sh)] /\
    values a = map (fun j => f (point h (place (gu_xlim g) n (chosen K j))) y) (indices sh).
  Proof using Hwt Hf Hn.
    intros Ho. destruct (opened_grid om initial n args kw g Ho) as (G1 & G2 & G3 & G4 & G5). rewrite G5.
    destruct (eval_at om n Hwt f Hf (cols g) G3 G4 Hn h) as (r & Er & Hy). exists r. split; [exact Er|]. intros y Hin. destruct (Hy y Hin) as (a & Ea & Sa & Va).
    exists a. split; [exact Ea|]. split; [exact Sa|]. rewrite (values1 a _ Sa).
    rewrite <- (map_nth_seq [] (fun j => f (point h (place (gu_xlim g) n (chosen K j))) y)). apply map_ext_in. intros t Ht. apply in_seq in Ht.
    rewrite Va by lia. rewrite (coords_chosen (gu_xlim g) (cols g)); [reflexivity|apply Ho|exact G2|apply nth_In; lia].
  Qed.
  Lemma point_get args kw g v w : opened args kw g -> dget (gu_xlim g) v = Some w -> dget (gu_points g) v = Some (linspace (fst w) (snd w) n).
  Proof using.
    intros (_ & _ & _ & O4 & _) Hw. rewrite O4. clear O4. revert Hw. induction (gu_xlim g) as [|[k x] l IH]; cbn [dget map fst snd]; [discriminate|].
    destruct (eq_dec v k) as [->|]; [intros E; injection E as ->; reflexivity|]. exact IH.
  Qed.
  Lemma points_count args kw g : opened args kw g -> List.length (gu_points g) = K.
  Proof using. intros Ho. destruct (opened_grid om initial n args kw g Ho) as (-> & _ & G3 & _). rewrite combine_length, G3. apply Nat.min_id. Qed.

  (** *** one independent variable *)
  Lemma line_spec args kw g h x y : om_indep om = [x] -> In y (om_dep om) -> opened args kw g ->
    exists pl w, update_one om percentile pct h (gu_points g) (gu_grid g) (x, y) = Ok pl /\ plot_model om h (gu_points g) (gu_grid g) (x, y) = Ok pl /\
      dget (gu_xlim g) x = Some w /\
      pl_x pl = map (spaced (fst w) (snd w) n) (seq 0 n) /\ shp (pl_y pl) = [n] /\
      forall i, (i < n)%nat -> val (pl_y pl) [i] = f (point h [(x, spaced (fst w) (snd w) n i)]) y.
  Proof using Hwt Hf Hn.
    intros Hx Hy Ho. destruct (point_at args kw g h Ho) as (r & Er & Hp). destruct (Hp y Hy) as (a & Ea & Sa & Va).
    assert (HK : K = 1%nat) by (rewrite Hx; reflexivity).
    destruct (proj1 (proj2 Ho) x ltac:(rewrite Hx; left; reflexivity)) as (b & w & _ & Hw & _).
    pose proof (point_get args kw g x w Ho Hw) as Hpt.
    assert (Hm : many (gu_points g) = false) by (unfold many; rewrite (points_count args kw g Ho), HK; reflexivity).
    assert (HN : List.length (indices sh) = n) by (rewrite HK; cbn [repeat]; rewrite indices1, map_length, seq_length; reflexivity).
    rewrite HN in Sa.
    exists {| pl_x := linspace (fst w) (snd w) n; pl_y := a; pl_err := [] |}, w. split; [|split; [|split; [exact Hw|]]].
    - unfold update_one. rewrite Hm. unfold update_2d. rewrite Er. cbn [bind fst snd]. rewrite Ea. cbn [bind]. unfold dlook. rewrite Hpt. reflexivity.
    - unfold plot_model. rewrite Er. cbn [bind fst snd]. rewrite Ea. cbn [bind]. rewrite Hm. unfold dlook. rewrite Hpt. cbn [of_opt bind].
      replace (List.length (linspace (fst w) (snd w) n)) with n by (unfold linspace; rewrite map_length, seq_length; reflexivity). rewrite Sa. destruct (list_eq_dec Nat.eq_dec [n] [n]); [reflexivity|congruence].
    - cbn [pl_x pl_y]. split; [reflexivity|]. split; [exact Sa|]. intros i Hi.
      assert (Ei : nth_error (values a) i = Some (val a [i])).
      { rewrite (values1 a n Sa), nth_error_map_seq. destruct (Nat.ltb_spec i n); [reflexivity|lia]. }
      rewrite Va, HK in Ei. cbn [repeat] in Ei. rewrite indices1, map_map, nth_error_map_seq in Ei. destruct (Nat.ltb_spec i n); [|lia].
      injection Ei as Ei. rewrite <- Ei. f_equal. f_equal. pose proof (proj1 Ho) as Hk. rewrite Hx in Hk.
      destruct (gu_xlim g) as [|[v w'] [|]]; try discriminate. cbn in Hk. injection Hk as ->. cbn [dget] in Hw. destruct (eq_dec x x); [|congruence]. injection Hw as ->.
      reflexivity.
  Qed.

  (** *** several independent variables *)
  Definition at_choice (h : heap) (g : guess) (y : sym) (c : list nat) : R := f (point h (place (gu_xlim g) n c)) y.
  Lemma grid_values args kw g k x : opened args kw g -> nth_error (om_indep om) k = Some x ->
    exists a, dget (gu_grid g) x = Some a /\ shp a = [List.length (indices sh)] /\
      values a = map (fun j => nth (nth (axis_of K k) j 0%nat) (nth k (cols g) []) 0) (indices sh).
  Proof using Hwt.
    intros Ho Hk. destruct (opened_grid om initial n args kw g Ho) as (G1 & G2 & G3 & G4 & G5). rewrite G5, (grid_get om Hwt (cols g) k x Hk).
    eexists. split; [reflexivity|]. split; [apply flat_shape; assumption|]. erewrite values1; [|apply flat_shape; eassumption].
    rewrite <- (map_nth_seq [] (fun j => nth (nth (axis_of K k) j 0%nat) (nth k (cols g) []) 0)). apply map_ext. intros t. apply flat_val; assumption.
  Qed.
  Lemma mask_choices args kw g h k x y w jj L a b : (2 <= K)%nat -> opened args kw g -> nth_error (om_indep om) k = Some x ->
    dget (gu_xlim g) x = Some w -> fst w < snd w -> (jj < n)%nat -> NoDup L -> (forall c, In c L <-> choice K n k jj c) ->
    values a = map (fun j => nth (nth (axis_of K k) j 0%nat) (nth k (cols g) []) 0) (indices sh) ->
    values b = map (fun j => at_choice h g y (chosen K j)) (indices sh) ->
    Permutation (masked (values a) (values b) (spaced (fst w) (snd w) n jj)) (map (at_choice h g y) L).
  Proof using Hwt Hn.
    intros HK Ho Hk Hw Hlt Hj HL HC -> ->. rewrite masked_map.
    assert (Hc : nth k (cols g) [] = linspace (fst w) (snd w) n).
    { destruct (opened_grid om initial n args kw g Ho) as (_ & -> & _). apply nth_error_nth. unfold columns. rewrite !nth_error_map.
      assert (E : nth_error (gu_xlim g) k = Some (x, w)).
      { pose proof (proj1 Ho) as Hd. assert (Hlk : nth_error (dkeys (gu_xlim g)) k = Some x) by (rewrite Hd; exact Hk). unfold dkeys in Hlk. rewrite nth_error_map in Hlk.
        destruct (nth_error (gu_xlim g) k) as [[x' w']|] eqn:E; [|discriminate]. cbn in Hlk. injection Hlk as ->. apply nth_error_In in E as Hin.
        assert (Hnd : NoDup (dkeys (gu_xlim g))) by (rewrite Hd; apply (indep_nd om Hwt)). rewrite (In_dget _ _ _ Hnd Hin) in Hw. injection Hw as ->. reflexivity. }
      rewrite E. reflexivity. }
    assert (Hkl : (k < K)%nat) by (apply nth_error_Some; congruence).
    rewrite (filter_ext_in _ (fun j => Nat.eqb (nth (axis_of K k) j 0%nat) jj)).
    - rewrite <- (map_map (chosen K) (at_choice h g y)). apply Permutation_map. apply chosen_perm; assumption.
    - intros j Hin. rewrite Hc. apply in_indices_rep in Hin as [L1 L2].
      assert (Hlj : (nth (axis_of K k) j 0 < n)%nat) by (apply L2; apply nth_In; rewrite L1; apply axis_lt; assumption).
      rewrite nth_linspace by exact Hlj. destruct (Nat.eqb_spec (nth (axis_of K k) j 0%nat) jj) as [->|Hne].
      + destruct (Req_EM_T _ _); [reflexivity|congruence].
      + destruct (Req_EM_T _ _) as [E|]; [|reflexivity]. exfalso. apply Hne. eapply spaced_inj; eassumption.
  Qed.
  Lemma mapM_nth {A B} (F : A -> res B) l o i x : mapM F l = Ok o -> nth_error l i = Some x -> exists y, F x = Ok y /\ nth_error o i = Some y.
  Proof using.
    revert o i. induction l as [|a l IH]; intros o i Hm Hi; [destruct i; discriminate|]. cbn [mapM] in Hm. destruct (F a) as [b|] eqn:Ea; [|discriminate]. cbn [bind] in Hm.
    destruct (mapM F l) as [bs|] eqn:Eb; [|discriminate]. cbn [bind] in Hm. injection Hm as <-. destruct i as [|i]; cbn [nth_error] in *; [injection Hi as ->; eauto|].
    eapply IH; [reflexivity|exact Hi].
  Qed.
  Lemma average_spec args kw g h k x y w pl : (2 <= K)%nat -> opened args kw g -> nth_error (om_indep om) k = Some x -> In y (om_dep om) ->
    dget (gu_xlim g) x = Some w -> fst w < snd w -> update_one om percentile pct h (gu_points g) (gu_grid g) (x, y) = Ok pl ->
    pl_x pl = map (spaced (fst w) (snd w) n) (seq 0 n) /\ shp (pl_y pl) = [n] /\
    forall jj L, (jj < n)%nat -> NoDup L -> (forall c, In c L <-> choice K n k jj c) ->
      exists ys lo hi, Permutation ys (map (at_choice h g y) L) /\ pct ys (fst percentile) = Ok lo /\ pct ys (snd percentile) = Ok hi /\
        val (pl_y pl) [jj] = Rsum (map (at_choice h g y) L) / INR (List.length L) /\
        nth_error (pl_err pl) jj = Some (lo + val (pl_y pl) [jj], hi + val (pl_y pl) [jj]).
  Proof using Hwt Hf Hn.
    intros HK Ho Hk Hy Hw Hlt Hu. unfold update_one in Hu.
    assert (Hm : many (gu_points g) = true) by (unfold many; rewrite (points_count args kw g Ho); apply Nat.ltb_lt; lia). rewrite Hm in Hu.
    unfold update_nd in Hu. destruct (point_at args kw g h Ho) as (r & Er & Hp). destruct (Hp y Hy) as (b & Eb & Sb & Vb).
    destruct (grid_values args kw g k x Ho Hk) as (a & Ea & Sa & Va). pose proof (point_get args kw g x w Ho Hw) as Hpt.
    rewrite Er in Hu. cbn [bind fst snd] in Hu. rewrite Eb in Hu. cbn [bind] in Hu. unfold dlook in Hu. rewrite Ea, Hpt in Hu. cbn [of_opt bind] in Hu.
    match type of Hu with context [mapM ?F ?l] => destruct (mapM F l) as [o|] eqn:Em; [|discriminate] end. cbn [bind] in Hu. injection Hu as <-. cbn [pl_x pl_y pl_err].
    assert (Hnt : forall jj, (jj < n)%nat -> exists lo hi, pct (masked (values a) (values b) (spaced (fst w) (snd w) n jj)) (fst percentile) = Ok lo /\
        pct (masked (values a) (values b) (spaced (fst w) (snd w) n jj)) (snd percentile) = Ok hi /\
        nth_error o jj = Some (spaced (fst w) (snd w) n jj, mean (masked (values a) (values b) (spaced (fst w) (snd w) n jj)), (lo, hi))).
    { intros jj Hj. destruct (mapM_nth _ _ _ jj (spaced (fst w) (snd w) n jj) Em) as (t & Et & Ht).
      - unfold linspace. fold (spaced (fst w) (snd w) n). rewrite nth_error_map_seq. destruct (Nat.ltb_spec jj n); [reflexivity|lia].
      - cbn beta in Et. destruct (list_eq_dec Nat.eq_dec (shp b) (shp a)); [|discriminate].
        destruct (pct _ (fst percentile)) as [lo|]; [|discriminate]. cbn [bind] in Et. destruct (pct _ (snd percentile)) as [hi|]; [|discriminate]. cbn [bind] in Et.
        injection Et as <-. eauto. }
    assert (Hlo : List.length o = n).
    { apply mapM_Ok in Em. clear -Em. assert (Hl : List.length (linspace (fst w) (snd w) n) = n) by (unfold linspace; rewrite map_length, seq_length; reflexivity).
      rewrite <- Hl. clear Hl. induction Em; cbn; congruence. }
    split; [|split].
    - apply nth_ext_error. intros i. rewrite nth_error_map, nth_error_map_seq. destruct (Nat.ltb_spec i n) as [Hi|Hi].
      + destruct (Hnt i Hi) as (lo & hi & _ & _ & ->). reflexivity.
      + rewrite (proj2 (nth_error_None o i)) by lia. reflexivity.
    - cbn [shp arr1]. rewrite map_length. rewrite Hlo. reflexivity.
    - intros jj L Hj HL HC. destruct (Hnt jj Hj) as (lo & hi & P1 & P2 & E).
      pose proof (mask_choices args kw g h k x y w jj L a b HK Ho Hk Hw Hlt Hj HL HC Va Vb) as HP.
      exists (masked (values a) (values b) (spaced (fst w) (snd w) n jj)), lo, hi. split; [exact HP|]. split; [exact P1|]. split; [exact P2|].
      assert (Ev : val (arr1 (map (fun t => snd (fst t)) o)) [jj] = mean (masked (values a) (values b) (spaced (fst w) (snd w) n jj))).
      { cbn [val arr1 hd]. apply nth_error_nth. rewrite nth_error_map, E. reflexivity. }
      rewrite Ev. split.
      + unfold mean. rewrite (Rsum_perm _ _ HP). rewrite (Permutation_length HP), map_length. reflexivity.
      + rewrite nth_error_map, E. cbn [option_map fst snd]. reflexivity.
  Qed.

  (** *** opening succeeds *)
  Definition total_percentiles : Prop := forall l q, l <> [] -> (q = fst percentile \/ q = snd percentile) -> exists r, pct l q = Ok r.
  Lemma in_projections x y : In (x, y) (projections om) -> In x (om_indep om) /\ In y (om_dep om).
  Proof using.
    unfold projections. intros H. apply in_concat in H as (l & Hl & H). apply in_map_iff in Hl as (x' & <- & Hx). apply in_map_iff in H as (y' & E & Hy). injection E as -> ->. auto.
  Qed.
  Lemma window_total (F : datum -> res (R * R)) l : (forall v x, In (v, x) l -> exists w, F x = Ok w) ->
    exists out : dict sym (R * R), mapM (fun kx => w <- F (snd kx) ;; Ok (fst kx, w)) l = Ok out.
  Proof using.
    induction l as [|[v x] l IH]; intros H; cbn [mapM]; [eauto|]. destruct (H v x (or_introl eq_refl)) as (w & Ew). cbn [fst snd]. rewrite Ew. cbn [bind].
    destruct IH as (o & ->); [intros; eapply H; right; eassumption|]. cbn [bind]. eauto.
  Qed.
  Lemma masked_nonempty k jj g : (2 <= K)%nat -> (k < K)%nat -> (jj < n)%nat -> forall (F : list nat -> R) x, (forall j, nth (axis_of K k) j 0%nat = jj -> F j = x) ->
    masked (map F (indices sh)) (map g (indices sh)) x <> [].
  Proof using.
    intros HK Hk Hj F x HF E. rewrite masked_map in E. assert (Hin : In (repeat jj K) (filter (fun j => if Req_EM_T (F j) x then true else false) (indices sh))).
    { apply filter_In. split.
      - apply in_indices_rep. split; [apply repeat_length|]. intros i Hi. apply repeat_spec in Hi. subst i. exact Hj.
      - destruct (Req_EM_T _ _) as [_|N]; [reflexivity|]. exfalso. apply N. apply HF. apply nth_error_nth. apply nth_error_repeat. apply axis_lt; assumption. }
    apply (in_map g) in Hin. rewrite E in Hin. exact Hin.
  Qed.
  Lemma shown_total args kw g h xy : total_percentiles -> opened args kw g -> In xy (projections om) ->
    (exists pl, update_one om percentile pct h (gu_points g) (gu_grid g) xy = Ok pl) /\ (exists pl, plot_model om h (gu_points g) (gu_grid g) xy = Ok pl).
  Proof using Hwt Hf Hn.
    intros Hpct Ho Hxy. destruct xy as [x y]. apply in_projections in Hxy as [Hx Hy].
    destruct (le_lt_dec 2 K) as [HK|HK].
    - destruct (In_nth_error _ _ Hx) as (k & Hk). assert (Hkl : (k < K)%nat) by (apply nth_error_Some; rewrite Hk; discriminate).
      destruct (proj1 (proj2 Ho) x Hx) as (b & w & _ & Hw & _).
      destruct (point_at args kw g h Ho) as (r & Er & Hp). destruct (Hp y Hy) as (a & Ea & Sa & Va).
      destruct (grid_values args kw g k x Ho Hk) as (gx & Eg & Sg & Vg). pose proof (point_get args kw g x w Ho Hw) as Hpt.
      assert (Hm : many (gu_points g) = true) by (unfold many; rewrite (points_count args kw g Ho); apply Nat.ltb_lt; exact HK).
      split.
      + unfold update_one. rewrite Hm. unfold update_nd. rewrite Er. cbn [bind fst snd]. rewrite Ea. cbn [bind]. unfold dlook. rewrite Eg, Hpt. cbn [of_opt bind].
        assert (Hall : forall l, (forall x0, In x0 l -> In x0 (linspace (fst w) (snd w) n)) -> exists o, mapM (fun x0 =>
           if list_eq_dec Nat.eq_dec (shp a) (shp gx) then
             let m := masked (values gx) (values a) x0 in
             lo <- pct m (fst percentile) ;; hi <- pct m (snd percentile) ;; Ok (x0, mean m, (lo, hi)) else Raise IndexError) l = Ok o).
        { induction l as [|x0 l IH]; intros Hl; cbn [mapM]; [eauto|]. destruct (list_eq_dec Nat.eq_dec (shp a) (shp gx)) as [_|N] in |- * at 1; [|congruence]. cbn zeta.
          assert (Hne : masked (values gx) (values a) x0 <> []).
          { specialize (Hl x0 (or_introl eq_refl)). unfold linspace in Hl. apply in_map_iff in Hl as (jj & <- & Hjj). apply in_seq in Hjj. rewrite Vg, Va.
            apply (masked_nonempty k jj); [exact HK|exact Hkl|apply Hjj|]. intros j Hj. rewrite Hj.
            assert (Hc : nth k (cols g) [] = linspace (fst w) (snd w) n).
            { destruct (opened_grid om initial n args kw g Ho) as (G1 & _ & G3 & _). rewrite G1 in Hpt.
              assert (Hck : (k < List.length (cols g))%nat) by (rewrite G3; exact Hkl).
              pose proof (nth_error_nth' (cols g) [] Hck) as Hc. assert (Hin : In (x, nth k (cols g) []) (combine (om_indep om) (cols g))).
              { eapply nth_error_In. rewrite nth_error_combine, Hk, Hc. reflexivity. }
              apply In_dget in Hin; [rewrite Hin in Hpt; injection Hpt; auto|]. rewrite dkeys_combine by (symmetry; exact G3). apply (indep_nd om Hwt). }
            rewrite Hc. apply nth_linspace. apply Hjj. }
          destruct (Hpct _ (fst percentile) Hne (or_introl eq_refl)) as (lo & ->). cbn [bind]. destruct (Hpct _ (snd percentile) Hne (or_intror eq_refl)) as (hi & ->). cbn [bind].
          destruct IH as (o & Eo); [intros; apply Hl; right; assumption|]. cbn zeta in Eo. rewrite Eo. cbn [bind]. eauto. }
        destruct (Hall _ (fun _ h => h)) as (o & Eo). cbn [bind fst snd] in Eo. rewrite Eo. cbn [bind]. eauto.
      + unfold plot_model. rewrite Er. cbn [bind fst snd]. rewrite Ea. cbn [bind]. rewrite Hm. unfold dlook. rewrite Eg. cbn [of_opt bind].
        assert (Hlen : [List.length (values gx)] = shp a) by (rewrite Vg, map_length, Sa; reflexivity). rewrite <- Hlen. destruct (list_eq_dec Nat.eq_dec _ _) as [_|N]; [eauto|congruence].
    - destruct (om_indep om) as [|x0 [|x1 l]] eqn:Ei; [destruct Hx| |cbn in HK; lia]. destruct Hx as [->|[]].
      destruct (line_spec args kw g h x y Ei Hy Ho) as (pl & w & E1 & E2 & _). eauto.
  Qed.
  Lemma init_total h args kw : om_indep om <> [] -> om_dep om <> [] -> total_percentiles -> NoDup (dkeys kw) -> all_data om args kw -> exists hg, guess_init om initial n percentile clip pct h args kw = Ok hg.
  Proof using Hwt Hgn Hf Hn.
    intros Hni Hnd Hpct Hkw (Hw & Hall & Hsp). unfold guess_init. rewrite (takes_sig om Hgn). cbn [bind].
    pose proof (takes_args om args kw Hgn Hkw) as Ht. destruct (takes_data_args om (sig_of om []) None args kw) as [t|] eqn:Et.
    2:{ exfalso. apply Ht. split; [exact Hw|]. split; [exact Hall|exact Hsp]. }
    cbn [bind]. destruct Ht as [_ Hst]. unfold stored in Hst.
    assert (Hi : forall v, In v (om_indep om) -> dget (td_data t) (KSym v) = Some (as_given (data_for om [] args kw v))) by (intros v Hv; apply Hst; apply in_or_app; left; exact Hv).
    assert (Hd : forall v, In v (om_dep om) -> dget (td_data t) (KSym v) = Some (as_given (data_for om [] args kw v))) by (intros v Hv; apply Hst; apply in_or_app; right; exact Hv).
    rewrite (ind_spec om Hwt (td_data t)) by (intros v Hv; rewrite (Hi v Hv); eauto). cbn [bind].
    rewrite (dep_spec om Hwt (td_data t)) by (intros v Hv; rewrite (Hd v Hv); eauto).
    set (ind := map _ (om_indep om)). set (dep := map _ (om_dep om)).
    destruct (window_total (x_window initial) ind) as (xlim & Ex).
    { intros v x Hin. unfold ind in Hin. apply in_map_iff in Hin as (v' & E & Hv). injection E as -> <-. rewrite (Hi v Hv).
      destruct (Hall v ltac:(apply in_or_app; left; exact Hv)) as (a & Ea & Na). rewrite Ea. pose proof (x_window_spec initial (DArr a)) as Q.
      destruct (x_window initial (DArr a)); [eauto|]. exfalso. destruct Q as [Q|(a' & Q & Q')]; [discriminate|]. injection Q as <-. exact (indices_nonempty _ Na Q'). }
    destruct (window_total y_window dep) as (ylim & Ey).
    { intros v x Hin. unfold dep in Hin. apply in_map_iff in Hin as (v' & E & Hv). injection E as -> <-. rewrite (Hd v Hv).
      destruct (Hall v ltac:(apply in_or_app; right; exact Hv)) as (a & Ea & Na). rewrite Ea. pose proof (y_window_spec (DArr a)) as Q.
      destruct (y_window (DArr a)); [eauto|]. exfalso. destruct Q as [Q|(a' & Q & Q')]; [discriminate|]. injection Q as <-. exact (indices_nonempty _ Na Q'). }
    rewrite Ex. cbn [bind]. cbv zeta. rewrite Ey. cbn [bind].
    set (points := map _ xlim). set (grid := map _ (combine (seq 0 (List.length points)) points)).
    set (sl := dict_of (map (fun p => (p, clip (fst (slider_limits (h p))) (snd (slider_limits (h p))) (p_value (h p)))) ps)). set (lim := dict_of _).
    assert (Ho : opened args kw {| gu_xlim := xlim; gu_ylim := ylim; gu_points := points; gu_grid := grid; gu_limits := lim; gu_slider := sl; gu_plots := [] |}).
    { destruct (window_fold _ _ _ Ex) as [X1 X2]. destruct (window_fold _ _ _ Ey) as [Y1 Y2]. unfold GuessFacts.opened, cols. cbn [gu_xlim gu_ylim gu_points gu_grid].
      unfold ind in X1. rewrite dkeys_map_self in X1. unfold dep in Y1. rewrite dkeys_map_self in Y1.
      split; [exact X1|]. split; [|split; [|split; reflexivity]].
      + intros v Hv. destruct (X2 ltac:(unfold ind; rewrite dkeys_map_self; apply (indep_nd om Hwt)) v _ (dget_map_self _ _ v Hv)) as (w & Ew & Dw). cbn beta in Ew. rewrite (Hi v Hv) in Ew.
        pose proof (x_window_spec initial (as_given (data_for om [] args kw v))) as Q. rewrite Ew in Q. destruct Q as (a & Ea & Wa). rewrite as_given_nd in Ea.
        exists a, w. unfold data_of. auto.
      + intros v Hv. destruct (Y2 ltac:(unfold dep; rewrite dkeys_map_self; apply (dep_nd om Hwt)) v _ (dget_map_self _ _ v Hv)) as (w & Ew & Dw). cbn beta in Ew. rewrite (Hd v Hv) in Ew.
        pose proof (y_window_spec (as_given (data_for om [] args kw v))) as Q. rewrite Ew in Q. destruct Q as (a & Ea & Wa). rewrite as_given_nd in Ea.
        exists a, w. unfold data_of. auto. }
    destruct (foldM_dset_total (fun xy => plot_model om h points grid xy) (projections om) (fun xy Hxy => proj2 (shown_total args kw _ h xy Hpct Ho Hxy)) []) as (pls & Ep).
    assert (Hpn : exists q l, projections om = q :: l).
    { unfold projections. destruct (om_indep om) as [|a la]; [congruence|]. destruct (om_dep om) as [|b lb]; [congruence|]. cbn [map concat app]. eauto. }
    assert (Hpm : (match projections om with [] => Raise ZeroDivisionError | _ => Ok tt end) = Ok tt) by (destruct Hpn as (q0 & l0 & ->); reflexivity).
    rewrite Hpm. cbn [bind].
    rewrite Ep. cbn [bind]. apply update_total; cbn [gu_slider gu_points gu_grid].
    - intros p Hp. unfold sl. rewrite dict_of_nodup by (rewrite map_map; cbn [fst]; rewrite map_id; apply (params_nd om Hwt)).
      rewrite (dget_map_self (fun p => clip (fst (slider_limits (h p))) (snd (slider_limits (h p))) (p_value (h p)))) by exact Hp. discriminate.
    - intros h1 xy Hxy. exact (proj1 (shown_total args kw _ h1 xy Hpct Ho Hxy)).
  Qed.
  Lemma session_total h args kw moves : om_indep om <> [] -> om_dep om <> [] -> total_percentiles -> NoDup (dkeys kw) -> all_data om args kw -> (forall p v, In (p, v) moves -> In p ps) ->
    exists hg, session h args kw moves = Ok hg.
  Proof using Hwt Hgn Hf Hn.
    intros Hni Hnd Hpct Hkw Hall Hmv. unfold Guess.session. destruct (init_total h args kw Hni Hnd Hpct Hkw Hall) as ([h0 g0] & Ei). rewrite Ei. cbn [bind].
    destruct (init_spec om initial n percentile clip pct Hwt Hgn h args kw h0 g0 Hkw Ei) as (I1 & I2 & _). clear Ei.
    revert h0 g0 I1 I2. induction moves as [|[p v] moves IH]; intros h0 g0 I1 I2; cbn [foldM fst snd]; [eauto|].
    assert (Hp : In p ps) by (eapply Hmv; left; reflexivity).
    assert (Hmove : exists hg, move om percentile pct h0 g0 p v = Ok hg).
    { unfold move, dlook. rewrite (proj1 I2 p Hp). cbn [of_opt bind]. apply update_total; cbn [gu_slider gu_points gu_grid].
      - intros q Hq. rewrite dget_dset. destruct (eq_dec q p); [discriminate|]. rewrite (proj1 I2 q Hq). discriminate.
      - intros h1 xy Hxy. exact (proj1 (shown_total args kw _ h1 xy Hpct I1 Hxy)). }
    destruct Hmove as ([h1 g1] & Em). rewrite Em. cbn [bind]. destruct (move_spec om percentile pct h0 g0 p v h1 g1 Em I2) as (M1 & M2 & _).
    apply IH; [intros q w Hq; eapply Hmv; right; exact Hq| |exact M2]. eapply opened_same; eassumption.
  Qed.
End Shows.
