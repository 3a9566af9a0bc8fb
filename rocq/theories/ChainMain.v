(** * ChainMain: proofs about chains of minimizers and BasinHopping *)
From Coq Require Import Reals Lra Lia.
From Verif Require Import PyBase PyFacts Signature Expr NumPy Model ModelSpec ModelFacts Objective ObjSpec Minimizer MinSpec MinFacts MinLemmas Fit FitSpec FitFacts FitData FitMain Chain ChainSpec.
Local Open Scope R_scope.
Local Open Scope string_scope.
Local Open Scope list_scope.

Definition same_objective (o : ochoice) (l : list mclass) : Prop := o <> ODefault \/ ~ In MINPACK l.

Lemma fit_data_choice fm cons o m m' absolute args kw : (o <> ODefault \/ (m <> MItem (MCls MINPACK) /\ m' <> MItem (MCls MINPACK))) ->
  fit_data fm cons o m absolute args kw = fit_data fm cons o m' absolute args kw.
Proof.
  intros H. unfold fit_data. destruct (fit_signature _ _) as [s|]; [|reflexivity]. cbn [bind]. destruct (sig_bind_partial s args kw) as [b|]; [|reflexivity]. cbn [bind].
  assert (E : class_of_choice fm o m b = class_of_choice fm o m' b).
  { destruct o; [|reflexivity|reflexivity]. destruct H as [H|[H1 H2]]; [congruence|]. cbn [class_of_choice]. unfold default_objective.
    destruct m as [|[[]|]|]; try congruence; destruct m' as [|[[]|]|]; try congruence; reflexivity. }
  unfold determine_objective. rewrite E. reflexivity.
Qed.
Lemma fit_other toward0 h fm cons o m m' absolute args kw f x : (o <> ODefault \/ (m <> MItem (MCls MINPACK) /\ m' <> MItem (MCls MINPACK))) ->
  fit_init toward0 h fm cons o m absolute args kw = Ok f ->
  init_choice toward0 h (fm_om fm) cons (objective_data (ft_data f)) (ft_class f) (ft_obj f) m' = Ok x ->
  fit_init toward0 h fm cons o m' absolute args kw = Ok (fit_with f x).
Proof.
  intros Hc Hf Hx. unfold fit_init in *. rewrite (fit_data_choice fm cons o m m' absolute args kw Hc) in Hf. apply bind_Ok in Hf as ([c t] & Hd & Hf). rewrite Hd. cbn [bind].
  apply bind_Ok in Hf as (ob & Hob & Hf). rewrite Hob. cbn [bind]. apply bind_Ok in Hf as (mn & Hm & Hf). inv Hf. cbn [ft_data ft_class ft_obj] in Hx. rewrite Hx. reflexivity.
Qed.
Theorem chain_members toward0 h fm cons o l absolute args kw f : same_objective o l ->
  fit_init toward0 h fm cons o (MSeq (map MCls l)) absolute args kw = Ok f ->
  exists ms, ft_min f = FChain (om_params (fm_om fm)) ms /\
    Forall2 (fun c x => fit_init toward0 h fm cons o (MItem (MCls c)) absolute args kw = Ok (fit_with f x)) l ms.
Proof.
  intros Hc Hf. destruct (fit_init_inv toward0 h fm cons o _ absolute args kw f Hf) as (t & _ & Hd & _ & _ & Hm).
  cbn [init_choice] in Hm. apply bind_Ok in Hm as (ms & Hms & Hm). exists ms. split; [congruence|]. clear Hm.
  assert (Hit : forall c x, In c l -> init_item toward0 h (fm_om fm) cons (objective_data (ft_data f)) (ft_class f) (ft_obj f) (MCls c) = Ok x ->
    fit_init toward0 h fm cons o (MItem (MCls c)) absolute args kw = Ok (fit_with f x)).
  { intros c x Hin Hx. apply (fit_other toward0 h fm cons o (MSeq (map MCls l)) (MItem (MCls c)) absolute args kw f x); [|exact Hf|exact Hx].
    destruct Hc as [Hc|Hc]; [left; exact Hc|right]. split; [discriminate|]. intros E. injection E as ->. exact (Hc Hin). }
  clear Hf Hd Hc. revert ms Hms.
  induction l as [|c l IH]; intros ms Hms; [inv Hms; constructor|]. cbn [map mapM] in Hms. apply bind_Ok in Hms as (x & Hx & Hms). apply bind_Ok in Hms as (xs & Hxs & Hms). inv Hms.
  constructor; [exact (Hit c x (or_introl eq_refl) Hx)|apply IH; [|exact Hxs]]. intros c' x' Hin. apply Hit. right; exact Hin.
Qed.
Theorem chain_made toward0 h fm cons o l absolute args kw : same_objective o l -> l <> [] ->
  (forall c, In c l -> exists f, fit_init toward0 h fm cons o (MItem (MCls c)) absolute args kw = Ok f) ->
  exists f, fit_init toward0 h fm cons o (MSeq (map MCls l)) absolute args kw = Ok f.
Proof.
  intros Hc Hne H. destruct l as [|c0 l0] eqn:El; [congruence|]. rewrite <- El in *. clear Hne.
  assert (H0 : In c0 l) by (rewrite El; left; reflexivity). clear El l0.
  assert (Hm : exists ms, forall f, fit_init toward0 h fm cons o (MItem (MCls c0)) absolute args kw = Ok f ->
     mapM (init_item toward0 h (fm_om fm) cons (objective_data (ft_data f)) (ft_class f) (ft_obj f)) (map MCls l) = Ok ms).
  { destruct (H c0 H0) as (f0 & Hf0). assert (Hn : forall c, In c l -> o <> ODefault \/ c <> MINPACK) by (intros c Hin; destruct Hc as [Hc|Hc]; [left; exact Hc|right; intros ->; exact (Hc Hin)]).
    assert (Hx : forall c, In c l -> exists x, init_item toward0 h (fm_om fm) cons (objective_data (ft_data f0)) (ft_class f0) (ft_obj f0) (MCls c) = Ok x).
    { intros c Hin. destruct (H c Hin) as (f1 & Hf1). unfold fit_init in Hf0, Hf1.
      rewrite (fit_data_choice fm cons o (MItem (MCls c)) (MItem (MCls c0)) absolute args kw) in Hf1.
      2:{ destruct (Hn c Hin) as [E|E]; [left; exact E|]. destruct (Hn c0 H0) as [E0|E0]; [left; exact E0|]. right. split; congruence. }
      apply bind_Ok in Hf0 as ([cc t] & Hd & Hf0). rewrite Hd in Hf1. cbn [bind] in Hf1. apply bind_Ok in Hf0 as (ob & Hob & Hf0). rewrite Hob in Hf1. cbn [bind] in Hf1.
      apply bind_Ok in Hf0 as (mn & Hmn & Hf0). inv Hf0. cbn [ft_data ft_class ft_obj]. apply bind_Ok in Hf1 as (x & Hx & _). exists x. exact Hx. }
    clear H H0 Hc Hn. assert (Hms : exists ms, mapM (init_item toward0 h (fm_om fm) cons (objective_data (ft_data f0)) (ft_class f0) (ft_obj f0)) (map MCls l) = Ok ms).
    { clear Hf0. induction l as [|c l IH]; [exists []; reflexivity|]. destruct (Hx c (or_introl eq_refl)) as (x & Ex). destruct IH as (ms & Ems); [intros c' Hin; apply Hx; right; exact Hin|].
      exists (x :: ms). cbn [map mapM]. rewrite Ex. cbn [bind]. rewrite Ems. reflexivity. }
    destruct Hms as (ms & Hms). exists ms. intros f Hf. rewrite Hf0 in Hf. inv Hf. exact Hms. }
  destruct Hm as (ms & Hm). destruct (H c0 H0) as (f0 & Hf0). specialize (Hm f0 Hf0). eexists.
  apply (fit_other toward0 h fm cons o (MItem (MCls c0)) (MSeq (map MCls l)) absolute args kw f0 (FChain (om_params (fm_om fm)) ms)); [|exact Hf0|cbn [init_choice]; rewrite Hm; reflexivity].
  destruct Hc as [Hc|Hc]; [left; exact Hc|right]. split; [|discriminate]. intros E. injection E as ->. exact (Hc H0).
Qed.

(** the problem of a minimizer with a guess *)
Lemma problem_with_guess h mn g : execute_problem h (with_guess mn g) DNone DNone = starting_at (execute_problem h mn DNone DNone) g.
Proof. destruct mn as [[] ? ? ? ? [|] [|] ?]; reflexivity. Qed.
Lemma class_names_apart (l : list mclass) : no_indexed_names (map class_name l).
Proof.
  intros n m k Hn Hm Hk E. apply in_map_iff in Hn as (c & <- & _). apply in_map_iff in Hm as (d & <- & _).
  assert (Hu : forall c2, ~ In "_"%char (list_ascii_of_string (class_name c2))) by (intros []; cbn; intros H; repeat (destruct H as [H|H]; [discriminate|]); exact H).
  apply (Hu d). rewrite E. clear. induction (class_name c); cbn; auto.
Qed.

Theorem chain_run toward0 h fm cons o l absolute args kw f inv scipy popt cov :
  let om := fm_om fm in
  let ps := om_params om in
  same_objective o l -> l <> [] -> NoDup (map sname ps) -> (forall p, In p ps -> p_fixed (h p) = false) ->
  fit_init toward0 h fm cons o (MSeq (map MCls l)) absolute args kw = Ok f ->
  answers_length scipy (List.length ps) ->
  fit_run inv scipy h om f = Ok (popt, cov) ->
  exists answers, List.length answers = List.length l /\
    (forall k c, nth_error l k = Some c -> exists a mn local, nth_error answers k = Some a /\
       fit_init toward0 h fm cons o (MItem (MCls c)) absolute args kw = Ok (fit_with f (FMin mn local)) /\
       scipy (starting_at (execute_problem h mn DNone DNone) (start (map (fun p => p_value (h p)) ps) answers k))
             (option_map (local_problem h) local) (fun z => obj_value (ft_class f) h om (ft_obj f) z []) = Ok a) /\
    nth_error answers (List.length l - 1) = Some (last answers {| an_x := popt; an_nit := None |}) /\
    an_x (last answers {| an_x := popt; an_nit := None |}) = popt /\
    fit_execute inv h om f popt = Ok (popt, cov).
Proof.
  intros om ps Hc Hne Hnd Hfree Hf Hlen Hr. destruct (chain_members _ _ _ _ _ _ _ _ _ _ Hc Hf) as (ms & Hm & HF).
  assert (HF' : Forall2 (fun c x => exists mn local, x = FMin mn local /\ mi_class mn = c /\ fit_init toward0 h fm cons o (MItem (MCls c)) absolute args kw = Ok (fit_with f x)) l ms).
  { clear -HF. induction HF as [|c x l ms H HF IH]; [constructor|]. constructor; [|exact IH].
    destruct (fit_init_inv _ _ _ _ _ _ _ _ _ _ H) as (t & _ & _ & _ & _ & Hx). cbn [init_choice fit_with ft_min ft_data ft_class ft_obj] in Hx.
    destruct (init_item_cls _ _ _ _ _ _ _ _ _ Hx) as (mn & local & -> & Hcl & _). exists mn, local. auto. }
  assert (Hnames : map fmin_name ms = map class_name l).
  { clear -HF'. induction HF' as [|c x l ms (mn & local & -> & <- & _) HF IH]; [reflexivity|]. cbn [map fmin_name]. rewrite IH. reflexivity. }
  assert (Hlm : List.length ms = List.length l) by (clear -HF'; induction HF'; cbn; congruence).
  unfold fit_run in Hr. rewrite Hm in Hr. cbn [run_minimizer] in Hr. fold om in Hr. fold ps in Hr.
  apply bind_Ok in Hr as (a & Ha & Hr). apply bind_Ok in Ha as (s & Hs & Ha). apply bind_Ok in Ha as ([[runs final] nit] & Hrun & Ha). inv Ha. cbn [an_x] in Hr.
  set (objective := fun z => obj_value (ft_class f) h om (ft_obj f) z []) in *.
  rewrite Hnames in Hs.
  destruct (chain_runs tt h ps (map class_name l) (map (fun x (_ : unit) => run_from scipy h objective x) ms) (map (fun p => p_value (h p)) (filter (fun p => negb (p_fixed (h p))) ps)) []
    (class_names_apart l)) as (s' & Hs' & Hall); [rewrite !map_length; exact Hlm|intros n []|]. rewrite Hs in Hs'. inv Hs'. rename s' into s.
  destruct (Hall runs final nit Hrun) as (Hlr & Hruns & (g & Hlast) & _). rewrite map_length, Hlm in Hlr.
  unfold chain_execute in Hrun. apply bind_Ok in Hrun as (opts & _ & Hrun). apply bind_Ok in Hrun as (l0 & Hloop & Hrun).
  assert (l0 = runs) by (apply bind_Ok in Hrun as (u & _ & Hrun); apply bind_Ok in Hrun as (u2 & _ & Hrun); inv Hrun; reflexivity). subst l0. clear Hrun.
  assert (Hrunk : forall k c, nth_error l k = Some c -> exists g a mn local, nth_error runs k = Some (g, a) /\
     fit_init toward0 h fm cons o (MItem (MCls c)) absolute args kw = Ok (fit_with f (FMin mn local)) /\
     scipy (starting_at (execute_problem h mn DNone DNone) g) (option_map (local_problem h) local) objective = Ok a).
  { intros k c Hk. destruct (Forall2_at _ _ _ HF' k c Hk) as (x & Hx & mn & local & -> & _ & Hfi).
    destruct (Hruns k (class_name c) (fun _ => run_from scipy h objective (FMin mn local))) as (g' & a & Hga & Hex).
    { rewrite nth_error_map, Hk. reflexivity. } { rewrite nth_error_map, Hx. reflexivity. }
    exists g', a, mn, local. split; [exact Hga|]. split; [exact Hfi|]. cbn [run_from] in Hex. rewrite problem_with_guess in Hex. exact Hex. }
  assert (Hax : forall g' a, In (g', a) runs -> List.length (an_x a) = List.length ps).
  { intros g' a Hin. apply In_nth_error in Hin as (k & Hk). assert (Hkl : (k < List.length l)%nat) by (rewrite <- Hlr; apply nth_error_Some; rewrite Hk; discriminate).
    destruct (nth_error l k) as [c|] eqn:Ec; [|apply nth_error_None in Ec; lia]. destruct (Hrunk k c Ec) as (g2 & a2 & mn & local & Hk2 & _ & Hsc). rewrite Hk in Hk2. inv Hk2. exact (Hlen _ _ _ _ Hsc). }
  destruct (chain_handover h ps _ _ runs Hfree Hnd Hloop Hax) as (Hfirst & Hnext).
  rewrite (filter_all_eq (fun p => negb (p_fixed (h p))) ps) in Hfirst by (intros p Hp; rewrite (Hfree p Hp); reflexivity).
  exists (map snd runs). assert (Hlen' : List.length (map snd runs) = List.length l) by (rewrite map_length; exact Hlr). split; [exact Hlen'|].
  assert (Hstart : forall k g' a, nth_error runs k = Some (g', a) -> g' = start (map (fun p => p_value (h p)) ps) (map snd runs) k).
  { intros [|k] g' a Hk; cbn [start]; [exact (Hfirst g' a Hk)|]. rewrite nth_error_map. destruct (nth_error runs k) as [[g2 a2]|] eqn:E2; cbn [option_map snd]; [exact (Hnext k g2 a2 g' a E2 Hk)|].
    apply nth_error_None in E2. assert (S k < List.length runs)%nat by (apply nth_error_Some; rewrite Hk; discriminate). lia. }
  split.
  { intros k c Hk. destruct (Hrunk k c Hk) as (g' & a & mn & local & Hk2 & Hfi & Hsc). exists a, mn, local. split; [rewrite nth_error_map, Hk2; reflexivity|]. split; [exact Hfi|].
    rewrite <- (Hstart k g' a Hk2). exact Hsc. }
  assert (Hfin : nth_error (map snd runs) (List.length l - 1) = Some final).
  { rewrite nth_error_map, <- Hlr. rewrite Hlast. reflexivity. }
  assert (Hla : forall d, last (map snd runs) d = final).
  { intros d. clear -Hfin Hlen' Hne. set (A := map snd runs) in *. clearbody A. destruct A as [|a A] using rev_ind; [destruct l; [congruence|discriminate]|].
    rewrite last_last. rewrite app_length in Hlen'. cbn in Hlen'. rewrite nth_error_app2 in Hfin by lia. replace (List.length l - 1 - List.length A)%nat with 0%nat in Hfin by lia. cbn in Hfin. congruence. }
  rewrite Hla. split; [exact Hfin|].
  assert (Hpo : pack_output h ps (an_x final) = Ok (an_x final)).
  { apply pack_all_free; [exact Hfree|]. apply (Hax g). rewrite Hlr in Hlast. exact (nth_error_In _ _ Hlast). }
  assert (Hex := Hr). unfold fit_execute in Hex. fold ps in Hex. rewrite Hpo in Hex. cbn [bind] in Hex. apply bind_Ok in Hex as (cv & _ & Hex). inv Hex.
  split; [reflexivity|exact Hr].
Qed.

(** ** BasinHopping *)
Theorem basin_local toward0 h fm cons o absolute args kw f :
  fit_init toward0 h fm cons o (MItem (MCls BasinHopping)) absolute args kw = Ok f ->
  exists mn local, ft_min f = FMin mn (Some local) /\ mi_class mn = BasinHopping /\
    fit_init toward0 h fm cons o MDefault absolute args kw = Ok (fit_with f (FMin local None)) /\
    starting_at (local_problem h local) [] = (let pb := execute_problem h local DNone DNone in
      {| pb_routine := pb_routine pb; pb_x0 := None; pb_lower := pb_lower pb; pb_upper := pb_upper pb; pb_jac := pb_jac pb; pb_hess := pb_hess pb; pb_cons := pb_cons pb |}).
Proof.
  intros Hf. destruct (fit_init_inv _ _ _ _ _ _ _ _ _ _ Hf) as (t & _ & _ & _ & _ & Hm). cbn [init_choice init_item] in Hm.
  apply bind_Ok in Hm as (local & Hl & Hm). apply bind_Ok in Hm as (mn & Hmn & Hm). assert (E : ft_min f = FMin mn (Some local)) by congruence. clear Hm.
  exists mn, local. split; [exact E|]. split; [exact (proj1 (init_class_cls _ _ _ _ _ _ _ _ Hmn))|].
  assert (Hcl := proj1 (init_class_cls _ _ _ _ _ _ _ _ Hl)).
  assert (Hd : determine_minimizer toward0 h (fm_om fm) cons = SLSQP \/ determine_minimizer toward0 h (fm_om fm) cons = LBFGSB \/ determine_minimizer toward0 h (fm_om fm) cons = BFGS).
  { unfold determine_minimizer. destruct cons; [|auto]. destruct (existsb _ _); auto. }
  split.
  - apply (fit_other toward0 h fm cons o (MItem (MCls BasinHopping)) MDefault absolute args kw f); [right; split; discriminate|exact Hf|].
    cbn [init_choice]. destruct Hd as [Hd|[Hd|Hd]]; rewrite Hd in *; cbn [init_item]; rewrite Hl; reflexivity.
  - destruct local as [c ? ? ? ? ? ? ?]. cbn [mi_class] in Hcl. subst c. destruct Hd as [Hd|[Hd|Hd]]; rewrite Hd; reflexivity.
Qed.
