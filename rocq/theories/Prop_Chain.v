(** * Prop_Chain: C84, fits with a sequence of minimizers, and C85, fits with BasinHopping. *)
From Coq Require Import Reals Lra Lia ClassicalEpsilon.
From Coquelicot Require Import Coquelicot.
From Verif Require Import PyBase PyFacts Signature SignatureFacts Expr Model ModelSpec ExprR Jacobian JacAnalysis NumPy NumFacts Objective ObjSpec Minimizer MinSpec MinFacts MinLemmas Fit FitSpec FitMain FitExample Cast ArrModel ArrSpec ConModel EndSpec EndMain Decide Prop_Model Prop_Jacobian Prop_ArrModel Prop_End Chain ChainSpec ChainMain.
Local Open Scope R_scope.

(** ** C84.  [Fit(.., minimizer=[c1, .., cn])]: each minimizer of the chain is the one [Fit] would make for it alone, with the
    same data and objective.  (Fit chooses another objective for MINPACK alone, so this needs an explicit one then.) *)
Theorem C84_members : forall toward0 h fm cons o l absolute args kw,
  o <> ODefault \/ ~ In MINPACK l ->
  (forall f, fit_init toward0 h fm cons o (MSeq (map MCls l)) absolute args kw = Ok f ->
     exists ms, ft_min f = FChain (om_params (fm_om fm)) ms /\
       Forall2 (fun c x => fit_init toward0 h fm cons o (MItem (MCls c)) absolute args kw = Ok (fit_with f x)) l ms) /\
  (l <> [] -> (forall c, In c l -> exists f, fit_init toward0 h fm cons o (MItem (MCls c)) absolute args kw = Ok f) ->
     exists f, fit_init toward0 h fm cons o (MSeq (map MCls l)) absolute args kw = Ok f).
Proof.
  intros toward0 h fm cons o l absolute args kw H. split; [intros f; exact (chain_members toward0 h fm cons o l absolute args kw f H)|exact (chain_made toward0 h fm cons o l absolute args kw H)].
Qed.
Print Assumptions C84_members.

(** [execute()] of such a fit (no parameter fixed): the k-th minimizer asks scipy what it would ask alone, but started where the one
    before it stopped; what the last one finds is reported, with the covariance matrix belonging to it. *)
Theorem C84_one_after_the_other : forall toward0 h fm cons o l absolute args kw f inv scipy popt cov,
  let om := fm_om fm in
  let ps := om_params om in
  o <> ODefault \/ ~ In MINPACK l -> l <> [] -> NoDup (map sname ps) -> (forall p, In p ps -> p_fixed (h p) = false) ->
  fit_init toward0 h fm cons o (MSeq (map MCls l)) absolute args kw = Ok f ->
  answers_length scipy (List.length ps) ->
  fit_run inv scipy h om f = Ok (popt, cov) ->
  exists answers, List.length answers = List.length l /\
    (forall k c, nth_error l k = Some c -> exists a mn local, nth_error answers k = Some a /\
       fit_init toward0 h fm cons o (MItem (MCls c)) absolute args kw = Ok (fit_with f (FMin mn local)) /\
       scipy (starting_at (execute_problem h mn DNone DNone) (start (map (fun p => p_value (h p)) ps) answers k))
             (option_map (local_problem h) local) (fun z => obj_value (ft_class f) h om (ft_obj f) z []) = Ok a) /\
    nth_error answers (List.length l - 1) = Some (last answers {| an_x := popt; an_nit := None |}) /\
    an_x (last answers {| an_x := popt; an_nit := None |}) = popt /\
    fit_execute inv h om f popt = Ok (popt, cov).
Proof. exact chain_run. Qed.
Print Assumptions C84_one_after_the_other.

(** For a least squares fit of a symbolic model: if the last algorithm is perfect the reported values are the least squares fit;
    and if none of them makes things worse, chi squared does not get worse along the chain (DifferentialEvolution
    does not look at where it should start). *)
Definition perfect (scipy : problem -> option problem -> (list R -> res nd) -> res answer) (c : Minimizer.mclass) (n : nat) : Prop :=
  forall pb lp ob a, pb_routine pb = routine_of c -> scipy pb lp ob = Ok a -> minimises ob pb n (an_x a).
Theorem C84_least_squares : forall simp sub mulm1 ord1 ord2 es m sol us toward0 h cons o l absolute args kw f G inv scipy popt cov,
  let om := om_of KModel simp ord2 m in
  let Y := the_data om cons args kw in
  let chi2 := chi2_for sol m Y (the_sigma om cons args kw) in
  let ps := m_params m in
  simp_ok simp -> sympy_arithmetic sub mulm1 -> set_order ord2 -> model_of ord1 es m -> means es sol -> ps <> [] -> has_jacobian simp ord2 m ->
  good_constraints es us -> init_constraints KModel simp sub mulm1 ord2 m us = Ok cons ->
  good_names om cons -> NoDup (dkeys kw) -> data_on_grid G m Y (the_sigma om cons args kw) -> constraints_on_grid G es us Y -> no_shape_clash G m ->
  o = ODefault \/ o = OClass OLS -> l <> [] -> (forall c, In c l -> suitable h ps us (MItem (MCls c))) -> (forall p, In p ps -> p_fixed (h p) = false) ->
  fit_init toward0 h {| fm_om := om; fm_len := List.length es |} cons o (MSeq (map MCls l)) absolute args kw = Ok f ->
  answers_length scipy (List.length ps) -> fit_run inv scipy h om f = Ok (popt, cov) ->
  let theta := reported ps popt in
  (perfect scipy (last l BFGS) (List.length ps) ->
     allowed h m theta /\ constraints_hold G sol us Y theta /\
     forall theta', allowed h m theta' -> constraints_hold G sol us Y theta' -> chi2 theta <= chi2 theta') /\
  (never_worse scipy -> exists answers, List.length answers = List.length l /\
     (~ In DifferentialEvolution l -> chi2 theta <= chi2 (fun p => p_value (h p))) /\
     forall k a, nth_error answers k = Some a -> 
       (exists pb lp ob, scipy pb lp ob = Ok a /\ Some (pb_routine pb) = option_map routine_of (nth_error l k)) /\
       (~ In DifferentialEvolution (skipn (S k) l) -> chi2 theta <= chi2 (parameter_value h ps (an_x a)))).
Proof.
  intros simp sub mulm1 ord1 ord2 es m sol us toward0 h cons o l absolute args kw f G inv scipy popt cov om Y chi2 ps
    Hsimp Har Ho2 Hm Hsol Hps HJ Hgc Hic Hg Hkw HG Hcg Hsc Ho Hne Hsu Hfree Hf Hlen Hr theta.
  assert (Hmp : ~ In MINPACK l). { intros Hin. destruct (Hsu _ Hin) as [E|(c & E & Hcn & _)]; [discriminate|]. injection E as <-. exact (Hcn eq_refl). }
  assert (Hnd : NoDup (map sname ps)). { destruct (ArrObj.om_interface simp ord1 ord2 es m m (ArrObj.built_self ord1 es m Hm) KModel) as (_ & N & _). cbn [om_indep om_params om_of] in N. rewrite map_app in N. apply NoDup_app_split in N as (_ & N & _). exact N. }
  assert (Hnf : nfree h ps = List.length ps) by (unfold nfree, free_of_list; rewrite FitData.filter_all_eq; [reflexivity|intros p Hp; rewrite (Hfree p Hp); reflexivity]).
  destruct (chain_run toward0 h {| fm_om := om; fm_len := List.length es |} cons o l absolute args kw f inv scipy popt cov (or_intror Hmp) Hne Hnd Hfree Hf Hlen Hr)
    as (answers & Hal & Hk & Hlast & Hx & Hex). cbn [fm_om] in Hk, Hex. change (om_params om) with ps in Hk.
  assert (Hsingle : forall c f1, In c l -> fit_init toward0 h {| fm_om := om; fm_len := List.length es |} cons o (MItem (MCls c)) absolute args kw = Ok f1 ->
     objective_chosen o (MItem (MCls c)) OLS /\ ft_class f1 = OLS /\ (forall x, List.length x = List.length ps -> obj_value OLS h om (ft_obj f1) x [] = Ok (scalar (/ 2 * chi2 (parameter_value h ps x)))) /\
     forall mn local, ft_min f1 = FMin mn local -> pb_routine (execute_problem h mn DNone DNone) = routine_of c /\
       pb_x0 (execute_problem h mn DNone DNone) = (match c with DifferentialEvolution => None | _ => Some (map (fun p => p_value (h p)) (free_of_list h ps)) end)).
  { intros c f1 Hin Hf1. assert (Hoc : objective_chosen o (MItem (MCls c)) OLS) by (split; [exact Ho|]; intros E; injection E as ->; exact (Hmp Hin)).
    destruct (C69_fit_problem simp sub mulm1 ord1 ord2 es m sol us toward0 h cons o (MItem (MCls c)) absolute args kw f1 G Hsimp Har Ho2 Hm Hsol Hps HJ Hgc Hic Hg Hkw HG Hcg Hsc Hoc (Hsu c Hin) Hf1)
      as (mn & local & Hmn & Hcc & Hcl & Hx0 & _ & Hv & _). destruct Hcc as [(E & _)|Hcc]; [discriminate|]. injection Hcc as Hcc. split; [exact Hoc|]. split; [exact Hcl|]. split.
    - intros x Hxl. apply Hv. unfold ps in Hnf. rewrite Hnf. exact Hxl.
    - intros mn' local' E. rewrite Hmn in E. injection E as <- <-. split; [rewrite pb_routine_eq, <- Hcc; reflexivity|]. rewrite Hcc. exact Hx0. }
  (* everything of the objective *)
  assert (Hobj : ft_class f = OLS /\ forall x, List.length x = List.length ps -> obj_value (ft_class f) h om (ft_obj f) x [] = Ok (scalar (/ 2 * chi2 (parameter_value h ps x)))).
  { destruct l as [|c l']; [congruence|]. destruct (Hk 0%nat c eq_refl) as (a & mn & local & _ & Hf1 & _). destruct (Hsingle c _ (or_introl eq_refl) Hf1) as (_ & Hc1 & Hv & _).
    cbn [fit_with ft_class ft_obj] in Hc1, Hv. split; [exact Hc1|]. rewrite Hc1. exact Hv. }
  destruct Hobj as (Hcl & Hobj). rewrite Hcl in Hobj.
  assert (Hpl : List.length popt = List.length ps).
  { destruct (nth_error l (List.length l - 1)) as [c|] eqn:Ec; [|apply nth_error_None in Ec; destruct l; [congruence|cbn in Ec; lia]].
    destruct (Hk _ c Ec) as (a & mn & local & Ha & _ & Hs). rewrite Hlast in Ha. injection Ha as Ha. rewrite <- Hx, Ha. exact (Hlen _ _ _ _ Hs). }
  assert (Hrep : chi2 theta = chi2 (parameter_value h ps popt)).
  { apply (chi2_ext KModel simp ord1 ord2 es m sol cons args kw Hm Hsol). intros p Hp. apply (reported_is KModel simp ord1 ord2 es m h Hm popt popt p); [unfold ps in Hnf; rewrite Hnf; exact Hpl| |exact Hp].
    apply pack_all_free; assumption. }
  split.
  - intros Hperf. destruct (nth_error l (List.length l - 1)) as [c|] eqn:Ec; [|apply nth_error_None in Ec; destruct l; [congruence|cbn in Ec; lia]].
    assert (Hlc : last l BFGS = c).
    { clear -Ec Hne. destruct l as [|x l] using rev_ind; [congruence|]. rewrite last_last. rewrite app_length in Ec. cbn in Ec. rewrite nth_error_app2 in Ec by lia. replace (List.length l + 1 - 1 - List.length l)%nat with 0%nat in Ec by lia. cbn in Ec. congruence. }
    destruct (Hk _ c Ec) as (a & mn & local & Ha & Hf1 & Hs). rewrite Hlast in Ha. injection Ha as Ha. assert (Hin := nth_error_In _ _ Ec).
    destruct (Hsingle c _ Hin Hf1) as (Hoc & _ & _ & Hpr). destruct (Hpr mn local eq_refl) as (Hrt & _).
    pose proof (Hperf (starting_at (execute_problem h mn DNone DNone) _) _ _ a (eq_trans Hrt (f_equal routine_of (eq_sym Hlc))) Hs) as Hmin. rewrite <- Ha, Hx, Hcl in Hmin.
    apply (C69_best_fit simp sub mulm1 ord1 ord2 es m sol us toward0 h cons o (MItem (MCls c)) absolute args kw (fit_with f (FMin mn local)) G mn local popt popt Hsimp Har Ho2 Hm Hsol Hps HJ Hgc Hic Hg Hkw HG Hcg Hsc Hoc (Hsu c Hin) Hf1 eq_refl).
    + unfold ps in Hnf. rewrite Hnf. exact Hmin.
    + apply pack_all_free; assumption.
  - intros Hnw. exists answers. split; [exact Hal|].
    assert (Hstep : forall k c a x0, nth_error l k = Some c -> nth_error answers k = Some a -> c <> DifferentialEvolution -> start (map (fun p => p_value (h p)) ps) answers k = x0 -> List.length x0 = List.length ps ->
       chi2 (parameter_value h ps (an_x a)) <= chi2 (parameter_value h ps x0)).
    { intros k c a x0 Hc Ha Hde Hst Hx0. destruct (Hk k c Hc) as (a' & mn & local & Ha' & Hf1 & Hs). rewrite Ha in Ha'. injection Ha' as <-. assert (Hin := nth_error_In _ _ Hc).
      destruct (Hsingle c _ Hin Hf1) as (_ & _ & _ & Hpr). destruct (Hpr mn local eq_refl) as (_ & Hp0).
      assert (Hp0' : pb_x0 (starting_at (execute_problem h mn DNone DNone) (start (map (fun p => p_value (h p)) ps) answers k)) = Some x0).
      { cbn [starting_at pb_x0]. rewrite Hp0, Hst. destruct c; try reflexivity. congruence. }
      rewrite Hcl in Hs. pose proof (Hnw _ _ _ a x0 _ _ Hs Hp0' (Hobj x0 Hx0) (Hobj _ (Hlen _ _ _ _ Hs))) as Hle. rewrite !elem_scalar in Hle. lra. }
    assert (Hlena : forall k a, nth_error answers k = Some a -> List.length (an_x a) = List.length ps).
    { intros k a Ha. destruct (nth_error l k) as [c|] eqn:Ec; [|apply nth_error_None in Ec; assert (k < List.length answers)%nat by (apply nth_error_Some; congruence); lia].
      destruct (Hk k c Ec) as (a' & mn & local & Ha' & _ & Hs). rewrite Ha in Ha'. injection Ha' as <-. exact (Hlen _ _ _ _ Hs). }
    (* from k on to the end *)
    assert (Hend : forall n k a, (k + n = List.length l - 1)%nat -> nth_error answers k = Some a -> ~ In DifferentialEvolution (skipn (S k) l) -> chi2 theta <= chi2 (parameter_value h ps (an_x a))).
    { induction n as [|n IH]; intros k a Hkn Ha Hde.
      - replace k with (List.length l - 1)%nat in Ha by lia. rewrite Hlast in Ha. injection Ha as Ha. rewrite <- Ha, Hx, Hrep. lra.
      - destruct (nth_error l (S k)) as [c|] eqn:Ec; [|apply nth_error_None in Ec; lia].
        destruct (nth_error answers (S k)) as [a'|] eqn:Ea; [|apply nth_error_None in Ea; lia].
        assert (Hsk : skipn (S k) l = c :: skipn (S (S k)) l). { clear -Ec. revert k Ec. induction l as [|y l IHl]; intros k Ec; [destruct k; discriminate|]. cbn [nth_error] in Ec. destruct k; [cbn in *; destruct l; [discriminate|injection Ec as ->; reflexivity]|]. exact (IHl k Ec). }
        rewrite Hsk in Hde. apply Rle_trans with (chi2 (parameter_value h ps (an_x a'))).
        + apply (IH (S k) a'); [lia|exact Ea|]. intros Hin. apply Hde. right; exact Hin.
        + apply (Hstep (S k) c a' (an_x a) Ec Ea); [intros ->; apply Hde; left; reflexivity|cbn [start]; rewrite Ha; reflexivity|exact (Hlena k a Ha)]. }
    split.
    + intros Hde. destruct l as [|c l'] eqn:El; [congruence|]. rewrite <- El in *. assert (Hc0 : nth_error l 0 = Some c) by (rewrite El; reflexivity).
      destruct (nth_error answers 0) as [a|] eqn:Ea; [|apply nth_error_None in Ea; rewrite Hal, El in Ea; cbn in Ea; lia].
      apply Rle_trans with (chi2 (parameter_value h ps (an_x a))).
      * apply (Hend (List.length l - 1)%nat 0%nat a); [lia|exact Ea|]. intros Hin. apply Hde. rewrite El in Hin |- *. right. exact Hin.
      * assert (Hl0 : List.length (map (fun p => p_value (h p)) ps) = List.length ps) by apply map_length.
        pose proof (Hstep 0%nat c a (map (fun p => p_value (h p)) ps) Hc0 Ea ltac:(intros ->; apply Hde; rewrite El; left; reflexivity) eq_refl Hl0) as Hle.
        apply Rle_trans with (1 := Hle). right. apply (chi2_ext KModel simp ord1 ord2 es m sol cons args kw Hm Hsol). intros p Hp. unfold parameter_value. rewrite (Hfree p Hp).
        fold ps. rewrite FitData.filter_all_eq by (intros q Hq; rewrite (Hfree q Hq); reflexivity).
        assert (Hgp : forall qs, In p qs -> dget (combine qs (map (fun p => p_value (h p)) qs)) p = Some (p_value (h p))).
        { induction qs as [|q qs IHq]; intros Hin; [destruct Hin|]. cbn [map combine dget]. destruct (eq_dec p q) as [->|Hn]; [reflexivity|]. apply IHq. destruct Hin as [->|Hin]; [congruence|exact Hin]. }
        rewrite (Hgp ps Hp). reflexivity.
    + intros k a Ha. destruct (nth_error l k) as [c|] eqn:Ec; [|apply nth_error_None in Ec; assert (k < List.length answers)%nat by (apply nth_error_Some; congruence); lia].
      split.
      * destruct (Hk k c Ec) as (a' & mn & local & Ha' & Hf1 & Hs). rewrite Ha in Ha'. injection Ha' as <-. destruct (Hsingle c _ (nth_error_In _ _ Ec) Hf1) as (_ & _ & _ & Hpr). destruct (Hpr mn local eq_refl) as (Hrt & _).
        eexists _, _, _. split; [exact Hs|]. cbn [starting_at pb_routine option_map]. f_equal. exact Hrt.
      * intros Hde. apply (Hend (List.length l - 1 - k)%nat k a); [|exact Ha|exact Hde]. assert (k < List.length l)%nat by (apply nth_error_Some; congruence). lia.
Qed.
Print Assumptions C84_least_squares.

(** Examples.  The setting of [C69_example], any parameter attributes, any class of minimizer. *)
Lemma ch_setting toward0 h : exists m, model_of oid aex_es m /\ m_params m = [pa; pb] /\ m_dep m = [vz] /\ has_jacobian (fun e => e) oid m /\ ArrSpec.has_hessian (fun e => e) oid m /\
    let om := om_of KModel (fun e => e) oid m in
    good_names om [] /\ NoDup (dkeys eex_kw) /\ no_bare_numbers om [] eex_args eex_kw /\ no_shape_clash [3%nat] m /\
    data_on_grid [3%nat] m (the_data om [] eex_args eex_kw) (the_sigma om [] eex_args eex_kw) /\
    the_data om [] eex_args eex_kw vx = Some (aex_vec 1 2 3) /\ the_data om [] eex_args eex_kw vz = Some (aex_vec 14 26 46) /\
    the_sigma om [] eex_args eex_kw vz = Some {| shp := [3%nat]; val := fun _ => 2 |} /\
    forall c, c <> BasinHopping -> exists f, fit_init toward0 h {| fm_om := om; fm_len := List.length aex_es |} [] ODefault (MItem (MCls c)) None eex_args eex_kw = Ok f.
Proof.
  destruct (C69_example toward0 false) as (m & f & mn & inv & Hm & _ & E1 & E2 & HJ & HH & _ & Hg & Hk & Hb & Hsc & HG & _). exists m.
  assert (E3 : m_indep m = [vx]). { destruct Hm as (_ & _ & _ & _ & _ & _ & Hi). vm_compute in Hi. inversion Hi. reflexivity. }
  split; [exact Hm|]. split; [exact E1|]. split; [exact E2|]. split; [exact HJ|]. split; [exact HH|]. cbv zeta in *.
  assert (Hdf : forall v, data_for (om_of KModel (fun e => e) oid m) [] eex_args eex_kw v =
    data_for {| om_params := [pa; pb]; om_indep := [vx]; om_dep := [vz]; om_names := map sp_name (m_sig m); om_call := arr_call oid m; om_jac := None; om_hess := None |} [] eex_args eex_kw v).
  { intros v. unfold data_for, argument_names, om_of. cbn [om_indep om_dep]. rewrite E2, E3. reflexivity. }
  assert (Dx : data_for (om_of KModel (fun e => e) oid m) [] eex_args eex_kw vx = DArr (aex_vec 1 2 3)) by (rewrite Hdf; reflexivity).
  assert (Dz : data_for (om_of KModel (fun e => e) oid m) [] eex_args eex_kw vz = DSeq (aex_vec 14 26 46)) by (rewrite Hdf; reflexivity).
  assert (Ds : data_for (om_of KModel (fun e => e) oid m) [] eex_args eex_kw (sigma_of vz) = DNum 2) by (rewrite Hdf; reflexivity).
  split; [exact Hg|]. split; [exact Hk|]. split; [exact Hb|]. split; [exact Hsc|]. split; [exact HG|].
  split; [unfold the_data; rewrite Dx; reflexivity|]. split; [unfold the_data; rewrite Dz; reflexivity|]. split; [unfold the_sigma; rewrite Dz, Ds; reflexivity|].
  intros c Hc. unfold om_of. rewrite E1, E2, E3. destruct c; try congruence; eexists; reflexivity.
Qed.

Lemma ch_two scipy h ob ps x1 x2 s a1 a2 p1 p2 n1 n2 : chain_signature [fmin_name x1; fmin_name x2] = Ok s -> chain_options tt s [] = Ok [tt; tt] ->
  run_from scipy h ob x1 (map (fun p => p_value (h p)) (filter (fun p => negb (p_fixed (h p))) ps)) = Ok a1 -> pack_output h ps (an_x a1) = Ok p1 ->
  run_from scipy h ob x2 (map snd (result_params ps p1)) = Ok a2 -> pack_output h ps (an_x a2) = Ok p2 -> an_nit a1 = Some n1 -> an_nit a2 = Some n2 ->
  run_minimizer scipy h ob (FChain ps [x1; x2]) = Ok {| an_x := an_x a2; an_nit := Some (n1 + n2)%nat |}.
Proof.
  intros Hs Ho H1 P1 H2 P2 N1 N2. cbn [run_minimizer map]. rewrite Hs. cbn [bind]. unfold chain_execute. rewrite Ho. cbn [bind combine chain_loop]. rewrite H1. cbn [bind]. rewrite P1. cbn [bind].
  rewrite H2. cbn [bind]. rewrite P2. cbn [bind]. cbn [rev app nth_error of_opt bind snd]. unfold total_nit. cbn [foldM snd]. rewrite N1. cbn [of_opt bind foldM snd]. rewrite N2. reflexivity.
Qed.
(** A perfect scipy *)
Definition ch_good (n : nat) (pb : problem) (ob : list R -> res nd) (a : answer) : Prop :=
  minimises ob pb n (an_x a) /\ an_nit a = Some 1%nat /\ forall x0 r r', pb_x0 pb = Some x0 -> ob x0 = Ok r -> ob (an_x a) = Ok r' -> elem r' [] <= elem r [].
Lemma ch_perfect n : exists scipy, answers_length scipy n /\ never_worse scipy /\ (forall pb lp ob a, scipy pb lp ob = Ok a -> minimises ob pb n (an_x a)) /\
  forall pb lp ob, (exists a, ch_good n pb ob a) -> exists a, scipy pb lp ob = Ok a /\ ch_good n pb ob a.
Proof.
  set (sc := fun (pb : problem) (lp : option problem) (ob : list R -> res nd) => match excluded_middle_informative (exists a, ch_good n pb ob a) with
    | left H => Ok (proj1_sig (constructive_indefinite_description _ H)) | right _ => Raise ValueError end).
  assert (Hs : forall pb lp ob a, sc pb lp ob = Ok a -> ch_good n pb ob a).
  { intros pb lp ob a. unfold sc. destruct (excluded_middle_informative _) as [H|H]; [|discriminate]. intros E. assert (Ea : a = proj1_sig (constructive_indefinite_description _ H)) by congruence.
    rewrite Ea. exact (proj2_sig (constructive_indefinite_description _ H)). }
  exists sc. split; [intros pb lp ob a H; exact (proj1 (proj1 (Hs _ _ _ _ H)))|]. split; [intros pb lp ob a x0 r r' H; exact (proj2 (proj2 (Hs _ _ _ _ H)) x0 r r')|].
  split; [intros pb lp ob a H; exact (proj1 (Hs _ _ _ _ H))|].
  intros pb lp ob H. unfold sc. destruct (excluded_middle_informative _) as [H'|H']; [|contradiction]. eexists. split; [reflexivity|exact (proj2_sig (constructive_indefinite_description _ H'))].
Qed.
(** [Fit(model, x, z=.., sigma_z=2, minimizer=[SLSQP, LBFGSB]).execute()] with it finds the parameters the data were made with: chi squared 0. *)
Example C84_example : forall toward0, exists m f inv scipy popt cov,
  model_of oid aex_es m /\ means aex_es jex_sol /\ m_params m = [pa; pb] /\ has_jacobian (fun e => e) oid m /\
    let om := om_of KModel (fun e => e) oid m in
    let h := eex_heap false in
    let Y := the_data om [] eex_args eex_kw in
    let S := the_sigma om [] eex_args eex_kw in
    good_names om [] /\ NoDup (dkeys eex_kw) /\ no_shape_clash [3%nat] m /\ data_on_grid [3%nat] m Y S /\
    (forall c, In c [SLSQP; LBFGSB] -> suitable h (m_params m) [] (MItem (MCls c))) /\ (forall p, In p (m_params m) -> p_fixed (h p) = false) /\
    fit_init toward0 h {| fm_om := om; fm_len := List.length aex_es |} [] ODefault (MSeq (map MCls [SLSQP; LBFGSB])) None eex_args eex_kw = Ok f /\
    answers_length scipy 2 /\ perfect scipy (last [SLSQP; LBFGSB] BFGS) 2 /\ never_worse scipy /\
    fit_run inv scipy h om f = Ok (popt, cov) /\ chi2_for jex_sol m Y S (reported (m_params m) popt) = 0.
Proof.
  intros toward0. set (h := eex_heap false). destruct (ch_setting toward0 h) as (m & Hm & E1 & E2 & HJ & HH & Hg & Hk & Hb & Hsc & HG & Yx & Yz & Sz & Hmk). cbv zeta in *.
  set (om := om_of KModel (fun e => e) oid m) in *.
  assert (Hsu : forall c, In c [SLSQP; LBFGSB] -> suitable h (m_params m) [] (MItem (MCls c))).
  { intros c Hc. right. exists c. split; [reflexivity|]. destruct Hc as [<-|[<-|[]]]; (split; [discriminate|]; split; [left; reflexivity|right; reflexivity]). }
  assert (Hfree : forall p, In p (m_params m) -> p_fixed (h p) = false) by (intros p _; unfold h, eex_heap; cbn; destruct (eq_dec p pb); reflexivity).
  assert (Hnm : ~ In MINPACK [SLSQP; LBFGSB]) by (intros [H|[H|[]]]; discriminate).
  destruct (chain_made toward0 h {| fm_om := om; fm_len := List.length aex_es |} [] ODefault [SLSQP; LBFGSB] None eex_args eex_kw (or_intror Hnm)) as (f & Hf); [discriminate| |].
  { intros c Hc. apply Hmk. destruct Hc as [<-|[<-|[]]]; discriminate. }
  destruct (chain_members toward0 h {| fm_om := om; fm_len := List.length aex_es |} [] ODefault [SLSQP; LBFGSB] None eex_args eex_kw f (or_intror Hnm) Hf) as (ms & Hms & HF). cbn [fm_om] in Hms. change (om_params om) with (m_params m) in Hms.
  assert (Hne : m_params m <> []) by (rewrite E1; discriminate).
  assert (Hn2 : nfree h (m_params m) = 2%nat) by (rewrite E1; reflexivity).
  (* [2; 5] is best for each of them *)
  assert (Hone : forall c x, In c [SLSQP; LBFGSB] -> fit_init toward0 h {| fm_om := om; fm_len := List.length aex_es |} [] ODefault (MItem (MCls c)) None eex_args eex_kw = Ok (fit_with f x) ->
    exists mn local, x = FMin mn local /\ mi_class mn = c /\ ft_class f = OLS /\
      (forall x0, List.length x0 = 2%nat -> obj_value OLS h om (ft_obj f) x0 [] = Ok (scalar (/ 2 * chi2_for jex_sol m (the_data om [] eex_args eex_kw) (the_sigma om [] eex_args eex_kw) (parameter_value h (m_params m) x0)))) /\
      minimises (fun z => obj_value OLS h om (ft_obj f) z []) (execute_problem h mn DNone DNone) 2 [2; 5]).
  { intros c x Hc Hfc. assert (Hoc : objective_chosen ODefault (MItem (MCls c)) OLS) by (split; [left; reflexivity|destruct Hc as [<-|[<-|[]]]; discriminate]).
    assert (Hgc : good_constraints aex_es []) by (intros u []). assert (Hcg : constraints_on_grid [3%nat] aex_es [] (the_data om [] eex_args eex_kw)) by (intros u v []).
    destruct (C69_fit_problem (fun e => e) ESub ENeg oid oid aex_es m jex_sol [] toward0 h [] ODefault (MItem (MCls c)) None eex_args eex_kw (fit_with f x) [3%nat] simp_id_ok eex_arith oid_ok Hm aex_means
      Hne HJ Hgc eq_refl Hg Hk HG Hcg Hsc Hoc (Hsu c Hc) Hfc) as (mn & local & Hmn & Hcc & Hcl & _ & Hfe & Hv & _). cbn [fit_with ft_min ft_class ft_obj] in Hmn, Hcl, Hv, Hfe. rewrite Hn2 in Hv, Hfe. fold om in Hv, Hfe.
    exists mn, local. split; [exact Hmn|]. split; [destruct Hcc as [(E & _)|E]; [discriminate|injection E as E; congruence]|]. split; [exact Hcl|]. split; [exact Hv|].
    assert (Hpa : parameter_value h (m_params m) [2; 5] pa = 2) by (rewrite E1; reflexivity). assert (Hpb : parameter_value h (m_params m) [2; 5] pb = 5) by (rewrite E1; reflexivity).
    split; [reflexivity|]. split.
    { apply Hfe; [reflexivity|]. split; [|intros u i []]. intros p Hp. rewrite (Hfree p Hp). assert (Hw : forall v, 0 <= v -> within h p v) by (intros v Hvv; split; cbn; [intros l Hq; injection Hq as <-; exact Hvv|discriminate]).
      rewrite E1 in Hp. destruct Hp as [<-|[<-|[]]]; apply Hw; [rewrite Hpa|rewrite Hpb]; lra. }
    intros x' r r' Hl' _ Hr Hr'. rewrite (Hv [2; 5] eq_refl) in Hr. rewrite (Hv x' Hl') in Hr'. injection Hr as <-. injection Hr' as <-. rewrite !elem_scalar.
    rewrite (eex_zero m _ _ _ E2 Yx Yz Sz Hpa Hpb). match goal with |- / 2 * 0 <= / 2 * ?B => assert (HB : 0 <= B) by apply chi2_nonneg; lra end. }
  inversion HF as [|? x1 ? ? H1 HF1]; subst. inversion HF1 as [|? x2 ? ? H2 HF2]; subst. inversion HF2; subst. clear HF HF1 HF2.
  destruct (Hone SLSQP x1 (or_introl eq_refl) H1) as (mn1 & lc1 & -> & C1 & Hcl & Hv & M1). destruct (Hone LBFGSB x2 (or_intror (or_introl eq_refl)) H2) as (mn2 & lc2 & -> & C2 & _ & _ & M2).
  destruct (ch_perfect 2) as (scipy & Hlen & Hnw & Hperf & Hsome).
  assert (Hrun : forall mn lc g, minimises (fun z => obj_value OLS h om (ft_obj f) z []) (execute_problem h mn DNone DNone) 2 [2; 5] -> List.length g = 2%nat ->
    exists a, run_from scipy h (fun z => obj_value OLS h om (ft_obj f) z []) (FMin mn lc) g = Ok a /\ an_nit a = Some 1%nat /\ List.length (an_x a) = 2%nat /\
      chi2_for jex_sol m (the_data om [] eex_args eex_kw) (the_sigma om [] eex_args eex_kw) (parameter_value h (m_params m) (an_x a)) = 0).
  { intros mn lc g HM Hgl. cbn [run_from]. rewrite problem_with_guess. set (pb := starting_at (execute_problem h mn DNone DNone) g).
    assert (Hz : chi2_for jex_sol m (the_data om [] eex_args eex_kw) (the_sigma om [] eex_args eex_kw) (parameter_value h (m_params m) [2; 5]) = 0) by (apply (eex_zero m _ _ _ E2 Yx Yz Sz); rewrite E1; reflexivity).
    assert (Hx : pb_x0 pb = None \/ pb_x0 pb = Some g) by (unfold pb, starting_at; cbn [pb_x0]; destruct (pb_x0 _); auto).
    destruct (Hsome pb (option_map (local_problem h) lc) (fun z => obj_value OLS h om (ft_obj f) z [])) as (a & Ha & (Hmin & Hnit & _)).
    { exists {| an_x := [2; 5]; an_nit := Some 1%nat |}. split; [exact HM|]. split; [reflexivity|]. intros x0 r r' Hx0 Hr Hr'. cbn [an_x] in Hr'.
      assert (x0 = g) by (destruct Hx as [Hx|Hx]; rewrite Hx in Hx0; [discriminate|congruence]). subst x0. rewrite (Hv g Hgl) in Hr. rewrite (Hv [2; 5] eq_refl) in Hr'.
      injection Hr as <-. injection Hr' as <-. rewrite !elem_scalar, Hz. match goal with |- / 2 * 0 <= / 2 * ?B => assert (HB : 0 <= B) by apply chi2_nonneg; lra end. }
    exists a. split; [exact Ha|]. split; [exact Hnit|]. destruct Hmin as (Hal & _ & Hbest). split; [exact Hal|].
    pose proof (Hbest [2; 5] _ _ eq_refl (proj1 (proj2 HM)) (Hv _ Hal) (Hv [2; 5] eq_refl)) as Hle. rewrite !elem_scalar, Hz in Hle.
    match type of Hle with / 2 * ?B <= _ => assert (HB : 0 <= B) by apply chi2_nonneg; lra end. }
  destruct inverts_exists as (inv & Hinv).
  assert (Hpk : forall x, List.length x = 2%nat -> pack_output h (m_params m) x = Ok x) by (intros x Hx; apply pack_all_free; [exact Hfree|rewrite E1; exact Hx]).
  destruct (Hrun mn1 lc1 (map (fun p => p_value (h p)) (filter (fun p => negb (p_fixed (h p))) (m_params m))) M1) as (a1 & R1 & N1 & L1 & _); [rewrite E1; reflexivity|].
  destruct (Hrun mn2 lc2 (map snd (result_params (m_params m) (an_x a1))) M2) as (a2 & R2 & N2 & L2 & Z2).
  { rewrite E1. destruct (an_x a1) as [|q1 [|q2 [|]]]; try discriminate. reflexivity. }
  assert (HR : run_minimizer scipy h (fun z => obj_value OLS h om (ft_obj f) z []) (ft_min f) = Ok {| an_x := an_x a2; an_nit := Some 2%nat |}).
  { rewrite Hms. eapply (ch_two scipy h _ (m_params m) (FMin mn1 lc1) (FMin mn2 lc2)) with (n1 := 1%nat) (n2 := 1%nat); [cbn [fmin_name]; rewrite C1, C2; reflexivity|reflexivity|exact R1|exact (Hpk _ L1)|exact R2|exact (Hpk _ L2)|exact N1|exact N2]. }
  assert (Hoc : objective_chosen ODefault (MSeq (map MCls [SLSQP; LBFGSB])) OLS) by (split; [left; reflexivity|discriminate]).
  destruct (C69_covariance inv (fun e => e) oid oid aex_es m jex_sol toward0 h [] ODefault (MSeq (map MCls [SLSQP; LBFGSB])) None eex_args eex_kw f [3%nat] (an_x a2) simp_id_ok oid_ok Hm aex_means
     Hne HH Hg Hk HG Hsc Hb Hoc Hf Hinv) as (popt & cov & H & K & Hex & Hpo & _); [rewrite Hn2; exact L2|].
  exists m, f, inv, scipy, popt, cov. split; [exact Hm|]. split; [exact aex_means|]. split; [exact E1|]. split; [exact HJ|]. cbv zeta. fold om.
  split; [exact Hg|]. split; [exact Hk|]. split; [exact Hsc|]. split; [exact HG|]. split; [exact Hsu|]. split; [exact Hfree|]. split; [exact Hf|]. split; [exact Hlen|]. split; [intros pb lp ob a _; apply Hperf|]. split; [exact Hnw|].
  split. { unfold fit_run. rewrite Hcl, HR. cbn [bind an_x]. exact Hex. }
  rewrite <- Z2. apply (chi2_ext KModel (fun e => e) oid oid aex_es m jex_sol [] eex_args eex_kw Hm aex_means). intros p Hp.
  apply (reported_is KModel (fun e => e) oid oid aex_es m h Hm (an_x a2) popt p); [rewrite Hn2; exact L2|exact Hpo|exact Hp].
Qed.

(** With a fixed parameter this fails.  Here [a] is fixed at 2, [b] starts at 7 and should be 5, and none of the algorithms
    makes things worse: NelderMead finds it, but [NelderMead, NelderMead] ends up far away: the second is started from [2; 5], the values of
    both parameters, and takes the 2 for [b]. *)
Definition ch_heap : heap := fun p => if eq_dec p pa then {| p_value := 2; p_min := None; p_max := None; p_fixed := true |} else {| p_value := 7; p_min := None; p_max := None; p_fixed := false |}.
Definition ch_lazy (pb : problem) (lp : option problem) (ob : list R -> res nd) : res answer :=
  match pb_x0 pb with
  | Some [v] => match ob [v], ob [5] with
                | Ok r, Ok r' => Ok {| an_x := if Rle_dec (elem r' []) (elem r []) then [5] else [v]; an_nit := Some 1%nat |}
                | _, _ => Ok {| an_x := [v]; an_nit := Some 1%nat |}
                end
  | Some x => Ok {| an_x := x; an_nit := Some 1%nat |}
  | None => Raise TypeError
  end.
Lemma ch_lazy_ok : never_worse ch_lazy.
Proof.
  intros pb lp ob a x0 r r' Ha Hx Hr Hr'. unfold ch_lazy in Ha. rewrite Hx in Ha.
  assert (Hsame : an_x a = x0 -> elem r' [] <= elem r []) by (intros E; rewrite E, Hr in Hr'; injection Hr' as <-; lra).
  destruct x0 as [|v [|w x0]]; [injection Ha as <-; auto| |injection Ha as <-; auto].
  rewrite Hr in Ha. destruct (ob [5]) as [r5|] eqn:E5; [|injection Ha as <-; auto]. injection Ha as <-. cbn [an_x] in *. destruct (Rle_dec (elem r5 []) (elem r [])) as [H|H]; [|auto].
  rewrite E5 in Hr'. injection Hr' as <-. exact H.
Qed.
Theorem C84_fixed_parameter_refuted : forall toward0, exists m f1 f2 inv scipy cov1 cov2,
  model_of oid aex_es m /\ means aex_es jex_sol /\ m_params m = [pa; pb] /\
    let om := om_of KModel (fun e => e) oid m in
    let chi2 := chi2_for jex_sol m (the_data om [] eex_args eex_kw) (the_sigma om [] eex_args eex_kw) in
    never_worse scipy /\
    fit_init toward0 ch_heap {| fm_om := om; fm_len := List.length aex_es |} [] ODefault (MItem (MCls NelderMead)) None eex_args eex_kw = Ok f1 /\
    fit_init toward0 ch_heap {| fm_om := om; fm_len := List.length aex_es |} [] ODefault (MSeq [MCls NelderMead; MCls NelderMead]) None eex_args eex_kw = Ok f2 /\
    fit_run inv scipy ch_heap om f1 = Ok ([2; 5], cov1) /\ chi2 (reported (m_params m) [2; 5]) = 0 /\
    fit_run inv scipy ch_heap om f2 = Ok ([2; 2], cov2) /\ 0 < chi2 (reported (m_params m) [2; 2]).
Proof.
  intros toward0. set (h := ch_heap). destruct (ch_setting toward0 h) as (m & Hm & E1 & E2 & HJ & HH & Hg & Hk & Hb & Hsc & HG & Yx & Yz & Sz & Hmk). cbv zeta in *.
  set (om := om_of KModel (fun e => e) oid m) in *.
  assert (Hnm : ~ In MINPACK [NelderMead; NelderMead]) by (intros [H|[H|[]]]; discriminate).
  destruct (Hmk NelderMead) as (f1 & Hf1); [discriminate|].
  destruct (chain_made toward0 h {| fm_om := om; fm_len := List.length aex_es |} [] ODefault [NelderMead; NelderMead] None eex_args eex_kw (or_intror Hnm)) as (f2 & Hf2); [discriminate| |].
  { intros c Hc. exists f1. destruct Hc as [<-|[<-|[]]]; exact Hf1. }
  destruct (chain_members toward0 h {| fm_om := om; fm_len := List.length aex_es |} [] ODefault [NelderMead; NelderMead] None eex_args eex_kw f2 (or_intror Hnm) Hf2) as (ms & Hms & HF). cbn [fm_om] in Hms. change (om_params om) with (m_params m) in Hms.
  inversion HF as [|? x1 ? ? H1 HF1]; subst. inversion HF1 as [|? x2 ? ? H2 HF2]; subst. inversion HF2; subst. clear HF HF1 HF2.
  assert (Hne : m_params m <> []) by (rewrite E1; discriminate). assert (Hn1 : nfree h (m_params m) = 1%nat) by (rewrite E1; reflexivity).
  assert (Hoc : objective_chosen ODefault (MItem (MCls NelderMead)) OLS) by (split; [left; reflexivity|discriminate]).
  assert (Hsu : suitable h (m_params m) [] (MItem (MCls NelderMead))).
  { right. exists NelderMead. split; [reflexivity|]. split; [discriminate|]. split; [|right; reflexivity]. right. intros p Hp. rewrite E1 in Hp. destruct Hp as [<-|[<-|[]]]; [left; reflexivity|right; split; reflexivity]. }
  assert (Hgc : good_constraints aex_es []) by (intros u []). assert (Hcg : constraints_on_grid [3%nat] aex_es [] (the_data om [] eex_args eex_kw)) by (intros u v []).
  destruct (C69_fit_problem (fun e => e) ESub ENeg oid oid aex_es m jex_sol [] toward0 h [] ODefault (MItem (MCls NelderMead)) None eex_args eex_kw f1 [3%nat] simp_id_ok eex_arith oid_ok Hm aex_means
      Hne HJ Hgc eq_refl Hg Hk HG Hcg Hsc Hoc Hsu Hf1) as (mn & local & Hmn & Hcc & Hcl & Hx0 & _ & Hv & _). rewrite Hn1 in Hv. fold om in Hv.
  assert (Hc : mi_class mn = NelderMead) by (destruct Hcc as [(E & _)|E]; [discriminate|injection E as E; congruence]). rewrite Hc in Hx0. clear Hcc.
  rewrite Hf1 in H1, H2. injection H1 as H1. injection H2 as H2. assert (Ex1 : x1 = FMin mn local) by (rewrite H1 in Hmn; exact Hmn). assert (Ex2 : x2 = FMin mn local) by (rewrite H2 in Hmn; exact Hmn).
  assert (Hob : ft_obj f2 = ft_obj f1) by (rewrite H1; reflexivity). assert (Hcl2 : ft_class f2 = OLS) by (rewrite <- Hcl, H1; reflexivity). subst x1 x2. clear H1 H2.
  destruct inverts_exists as (inv & Hinv).
  assert (Hz : chi2_for jex_sol m (the_data om [] eex_args eex_kw) (the_sigma om [] eex_args eex_kw) (parameter_value h (m_params m) [5]) = 0) by (apply (eex_zero m _ _ _ E2 Yx Yz Sz); rewrite E1; reflexivity).
  destruct (C69_covariance inv (fun e => e) oid oid aex_es m jex_sol toward0 h [] ODefault (MItem (MCls NelderMead)) None eex_args eex_kw f1 [3%nat] [5] simp_id_ok oid_ok Hm aex_means
     Hne HH Hg Hk HG Hsc Hb Hoc Hf1 Hinv) as (po1 & cov1 & A1 & B1 & Hex1 & Hpo1 & _); [rewrite Hn1; reflexivity|].
  assert (Hoc2 : objective_chosen ODefault (MSeq [MCls NelderMead; MCls NelderMead]) OLS) by (split; [left; reflexivity|discriminate]).
  destruct (C69_covariance inv (fun e => e) oid oid aex_es m jex_sol toward0 h [] ODefault (MSeq [MCls NelderMead; MCls NelderMead]) None eex_args eex_kw f2 [3%nat] [2] simp_id_ok oid_ok Hm aex_means
     Hne HH Hg Hk HG Hsc Hb Hoc2 Hf2 Hinv) as (po2 & cov2 & A2 & B2 & Hex2 & Hpo2 & _); [rewrite Hn1; reflexivity|].
  assert (Hpk1 : pack_output h (m_params m) [5] = Ok [2; 5]) by (rewrite E1; reflexivity). assert (Hpk2 : pack_output h (m_params m) [2] = Ok [2; 2]) by (rewrite E1; reflexivity).
  assert (Hpk3 : pack_output h (m_params m) [2; 5] = Ok [2; 2]) by (rewrite E1; reflexivity).
  rewrite Hpk1 in Hpo1. assert (po1 = [2; 5]) by congruence. rewrite Hpk2 in Hpo2. assert (po2 = [2; 2]) by congruence. subst po1 po2. clear Hpo1 Hpo2.
  assert (Hrep : forall x popt, List.length x = 1%nat -> pack_output h (m_params m) x = Ok popt ->
    chi2_for jex_sol m (the_data om [] eex_args eex_kw) (the_sigma om [] eex_args eex_kw) (reported (m_params m) popt) = chi2_for jex_sol m (the_data om [] eex_args eex_kw) (the_sigma om [] eex_args eex_kw) (parameter_value h (m_params m) x)).
  { intros x popt Hl Hp. apply (chi2_ext KModel (fun e => e) oid oid aex_es m jex_sol [] eex_args eex_kw Hm aex_means). intros p Hpin.
    apply (reported_is KModel (fun e => e) oid oid aex_es m h Hm x popt p); [rewrite Hn1; exact Hl|exact Hp|exact Hpin]. }
  (* the first run, from 7, finds 5 *)
  assert (Hfree : map (fun p => p_value (h p)) (filter (fun p => negb (p_fixed (h p))) (m_params m)) = [7]) by (rewrite E1; reflexivity).
  assert (Hrun1 : forall lp, ch_lazy (starting_at (execute_problem h mn DNone DNone) [7]) lp (fun z => obj_value OLS h om (ft_obj f1) z []) = Ok {| an_x := [5]; an_nit := Some 1%nat |}).
  { intros lp. unfold ch_lazy. cbn [starting_at pb_x0]. rewrite Hx0. rewrite (Hv [7] eq_refl), (Hv [5] eq_refl), !elem_scalar, Hz.
    match goal with |- context [Rle_dec ?a ?b] => destruct (Rle_dec a b) as [H|H]; [reflexivity|exfalso; apply H] end.
    match goal with |- / 2 * 0 <= / 2 * ?B => assert (HB : 0 <= B) by apply chi2_nonneg; lra end. }
  assert (Hrun2 : forall lp ob, ch_lazy (starting_at (execute_problem h mn DNone DNone) [2; 5]) lp ob = Ok {| an_x := [2; 5]; an_nit := Some 1%nat |}).
  { intros lp ob. unfold ch_lazy. cbn [starting_at pb_x0]. rewrite Hx0. reflexivity. }
  exists m, f1, f2, inv, ch_lazy, cov1, cov2. split; [exact Hm|]. split; [exact aex_means|]. split; [exact E1|]. cbv zeta. fold om. fold h. split; [exact ch_lazy_ok|]. split; [exact Hf1|]. split; [exact Hf2|].
  split. { unfold fit_run. rewrite Hmn. cbn [run_minimizer]. rewrite Hcl.
    assert (Hst : execute_problem h mn DNone DNone = starting_at (execute_problem h mn DNone DNone) [7]).
    { unfold starting_at. rewrite Hx0. destruct (execute_problem h mn DNone DNone) as [rt x0 lo up ja he co]. cbn [pb_x0 pb_routine pb_lower pb_upper pb_jac pb_hess pb_cons] in *. rewrite Hx0. f_equal. f_equal. exact Hfree. }
    rewrite Hst, Hrun1. cbn [bind an_x]. exact Hex1. }
  split; [rewrite (Hrep [5] [2; 5] eq_refl Hpk1); exact Hz|].
  split. { unfold fit_run. rewrite Hms, Hcl2, Hob.
    rewrite (ch_two ch_lazy h (fun z => obj_value OLS h om (ft_obj f1) z []) (m_params m) (FMin mn local) (FMin mn local) [{| sp_name := "NelderMead"; sp_kwonly := true; sp_default := true |}; {| sp_name := "NelderMead_2"; sp_kwonly := true; sp_default := true |}]%string
      {| an_x := [5]; an_nit := Some 1%nat |} {| an_x := [2; 5]; an_nit := Some 1%nat |} [2; 5] [2; 2] 1%nat 1%nat).
    - cbn [bind an_x]. fold om in Hex2. rewrite <- Hex2. unfold fit_execute. change (om_params om) with (m_params m). rewrite Hpk2, Hpk3. reflexivity.
    - cbn [fmin_name]. rewrite Hc. reflexivity.
    - reflexivity.
    - cbn [run_from]. rewrite problem_with_guess, Hfree. apply Hrun1.
    - exact Hpk1.
    - cbn [run_from]. rewrite problem_with_guess. replace (map snd (result_params (m_params m) [2; 5])) with [2; 5] by (rewrite E1; reflexivity). apply Hrun2.
    - exact Hpk3.
    - reflexivity.
    - reflexivity. }
  rewrite (Hrep [2] [2; 2] eq_refl Hpk2).
  set (th := parameter_value h (m_params m) [2]). assert (Ha : th pa = 2) by (unfold th; rewrite E1; reflexivity). assert (Hbb : th pb = 2) by (unfold th; rewrite E1; reflexivity). clearbody th.
  unfold chi2_for. rewrite E2. cbn [map Rsum fold_right]. rewrite Yz, Sz. change (indices (shp (aex_vec 14 26 46))) with [[0%nat]; [1%nat]; [2%nat]]. cbn [map Rsum fold_right].
  assert (Hs : forall i, jex_sol (at_data (the_data om [] eex_args eex_kw) th i) vz = (2 * elem (aex_vec 1 2 3) i) * ((2 * elem (aex_vec 1 2 3) i) * 1) + 2 * 2).
  { intros i. assert (B : at_data (the_data om [] eex_args eex_kw) th i vx = elem (aex_vec 1 2 3) i) by (unfold at_data; cbn [is_par vx]; rewrite Yx; reflexivity).
    assert (B2' : at_data (the_data om [] eex_args eex_kw) th i pa = 2) by (unfold at_data; cbn [is_par pa]; exact Ha). assert (B3 : at_data (the_data om [] eex_args eex_kw) th i pb = 2) by (unfold at_data; cbn [is_par pb]; exact Hbb).
    revert B B2' B3. generalize (at_data (the_data om [] eex_args eex_kw) th i). intros env B B2' B3. change (jex_sol env vz) with ((env pa * env vx) * ((env pa * env vx) * 1) + env pa * env pb). rewrite B, B2', B3. reflexivity. }
  rewrite !Hs. change (elem (aex_vec 1 2 3) [0%nat]) with 1. change (elem (aex_vec 1 2 3) [1%nat]) with 2. change (elem (aex_vec 1 2 3) [2%nat]) with 3.
  change (val (aex_vec 14 26 46) [0%nat]) with 14. change (val (aex_vec 14 26 46) [1%nat]) with 26. change (val (aex_vec 14 26 46) [2%nat]) with 46.
  unfold elem, bidx. cbn. lra.
Qed.
Print Assumptions C84_fixed_parameter_refuted.
