(** * EndCon: the derivatives of constraints between parameters. *)
From Coq Require Import Reals Lra Lia.
From Coquelicot Require Import Coquelicot.
From Verif Require ObjExample ArrObj.
From Verif Require Import PyBase PyFacts Signature SignatureFacts Expr Model ModelSpec ModelFacts CallFacts InitFacts ConstraintFacts AsConstraint ExprR Jacobian JacFacts JacAnalysis JacSecond JacLemmas DerNames Cast NumPy NumFacts Objective ObjSpec ObjFacts ObjDiff Minimizer MinSpec MinFacts MinLemmas Fit FitSpec FitData FitFacts FitCov FitThm FitMain ArrModel ArrSpec ArrFacts ArrCall ArrMain ArrCon ConModel EndSpec EndMain.
Local Open Scope R_scope.

(** a constraint that mentions no component of the model is a model of its own *)
Lemma constraint_alone {V} sub mulm1 w ord r l rh (m cm : model (V:=V)) ty : set_order ord ->
  as_constraint sub mulm1 w ord (CRel r l rh) m = Ok (cm, ty) ->
  (forall s, mentions (sub l rh) s -> ~ In s (dkeys (m_dict m))) -> ~ In w (dkeys (m_dict m)) -> dkeys (m_dict cm) = [w].
Proof.
  intros Ho H Hno Hw. unfold as_constraint in H. apply bind_Ok in H as (i0 & H0 & H). apply bind_Ok in H as ([i1 ty'] & H1 & H).
  assert (E0 : dkeys (m_dict i0) = [w]).
  { unfold with_dependencies in H0. apply bind_Ok in H0 as (m0 & Hm0 & H0).
    destruct (init_model_inv _ _ _ Hm0) as (_ & E & _).
    destruct (existsb _ _) eqn:Ex; [|inv H0; rewrite E; reflexivity].
    exfalso. apply existsb_exists in Ex as (v & Hv & Hd). apply dmem_keys in Hd.
    assert (Hdi : is_dict [(w, CExpr (V:=V) (sub l rh))]) by (constructor; [intros []|constructor]).
    apply (in_indep_iff ord _ m0 Ho Hdi Hm0) in Hv as (Hs & _ & Hk).
    destruct Hs as [Hs|(k & e & [Hin|[]] & Hmn)]; [contradiction|]. injection Hin as <- <-. exact (Hno v Hmn Hd). }
  assert (E1 : dkeys (m_dict i1) = [w]).
  { destruct r; try discriminate; try (inv H1; exact E0). apply bind_Ok in H1 as (n & Hn & H1). inv H1. unfold neg_model in Hn.
    apply bind_Ok in Hn as (d & Hd & Hn). destruct (init_model_inv _ _ _ Hn) as (_ & E & _). rewrite E, dkeys_sort_items.
    assert (Ek : dkeys d = [w]); [|rewrite Ek; reflexivity]. rewrite <- E0. clear -Hd. unfold neg_dict in Hd. revert Hd. generalize (m_dict i0) as D. generalize (m_dep i0) as vs.
    induction vs as [|v vs IH]; intros D Hd; [inv Hd; reflexivity|]. cbn [foldM] in Hd. apply bind_Ok in Hd as (D' & H1 & Hd).
    apply bind_Ok in H1 as (c & Hc & H1). apply bind_Ok in H1 as (c' & _ & H1). injection H1 as <-. rewrite (IH _ Hd), dkeys_dset.
    unfold dlook in Hc. destruct (dget D v) eqn:E1; [|discriminate]. apply dget_Some_key in E1. apply inb_In in E1. rewrite E1. reflexivity. }
  destruct (Nat.eqb _ _); [|discriminate]. destruct (forallb _ _); [|discriminate]. apply bind_Ok in H as (i2 & H2 & H). inv H.
  unfold set_params in H2. apply bind_Ok in H2 as (sg & _ & H2). inv H2. exact E1.
Qed.

Section Alone.
  Context (sub : expr -> expr -> expr) (mulm1 : expr -> expr) (ord1 ord3 : list sym -> list sym).
  Context (es : dict sym expr) (m : amodel) (sol : (sym -> R) -> sym -> R).
  Context (w : sym) (r : rel) (l rh : expr) (cm : amodel) (ty : rel).
  Hypothesis Hm : model_of ord1 es m.
  Hypothesis Hsol : means es sol.
  Hypothesis Har : sympy_arithmetic sub mulm1.
  Hypothesis Ho3 : set_order ord3.
  Hypothesis Hw : constraint_name es l rh w.
  Hypothesis Hpl : proper_powers l /\ proper_powers rh.
  Hypothesis Hc : as_constraint sub mulm1 w ord3 (CRel r l rh) m = Ok (cm, ty).
  Hypothesis Hpar : forall s, mentions l s \/ mentions rh s -> is_par s = true.

  Lemma keys_plain k : In k (dkeys es) -> is_par k = false.
  Proof using Hm. intros Hk. destruct Hm as (_ & _ & _ & _ & Hplain & _). destruct (proj1 Hplain k) as (n & ->); [rewrite ArrObj.dkeys_comps; exact Hk|reflexivity]. Qed.
  Lemma m_keys s : In s (dkeys (m_dict m)) <-> In s (dkeys es).
  Proof using Hm.
    destruct Hm as (_ & _ & _ & _ & _ & _ & Hi). destruct (init_model_inv _ _ _ Hi) as (_ & E & _). rewrite E, dkeys_sort_items, in_sort_by, ArrObj.dkeys_comps. reflexivity.
  Qed.
  Lemma alone_built : exists e cm0 solc, built ord3 [(w, e)] cm0 cm /\ means [(w, e)] solc /\ m_dep cm = [w] /\ m_indep cm = [] /\ m_params cm = m_params m /\
    ((r = REq /\ ty = REq) \/ (r = RGe /\ ty = RGe) \/ (r = RLe /\ ty = RGe)) /\
    (forall inp, solc inp w = signed r (eval Ralg inp l - eval Ralg inp rh)) /\ (e = sub l rh \/ e = mulm1 (sub l rh)) /\
    (forall inp s, is_par s = true -> solc inp s = inp s).
  Proof using Hm Hsol Har Ho3 Hw Hpl Hc Hpar.
    destruct (con_built sub mulm1 ord1 ord3 es m sol w r l rh cm ty Hm Hsol Har Ho3 Hw Hpl Hc) as (ec & cm0 & solc & Hb & Hsc & Hdep & Hps & Hty & _ & Hval & Hex & _).
    assert (Hpar' : forall s, mentions (sub l rh) s -> is_par s = true) by (intros s Hs; apply Hpar; apply Har; exact Hs).
    assert (Hk : dkeys (m_dict cm) = [w]).
    { apply (constraint_alone sub mulm1 w ord3 r l rh m cm ty Ho3 Hc).
      - intros s Hs Hk. apply m_keys in Hk. pose proof (Hpar' s Hs) as Hq. rewrite (keys_plain s Hk) in Hq. discriminate.
      - intros Hk. apply m_keys in Hk. destruct Hw as (_ & Hws & _). apply Hws. left. rewrite ArrObj.dkeys_comps. exact Hk. }
    assert (E : exists e, ec = [(w, e)]).
    { destruct Hb as ((_ & _ & _ & _ & _ & _ & Hi) & Hset & _). destruct (init_model_inv _ _ _ Hi) as (_ & E & _).
      destruct (set_params_fields cm0 cm _ Hset) as (E1 & _). rewrite E1, E, dkeys_sort_items, ArrObj.dkeys_comps in Hk.
      assert (Hp : Permutation.Permutation (dkeys ec) [w]) by (rewrite <- Hk; apply sort_by_perm).
      apply Permutation.Permutation_sym, Permutation.Permutation_length_1_inv in Hp. destruct ec as [|[k e] [|? ?]]; try discriminate. cbn in Hp. injection Hp as ->. eauto. }
    destruct E as (e & ->). exists e, cm0, solc. split; [exact Hb|]. split; [exact Hsc|]. split; [exact Hdep|].
    assert (He : e = sub l rh \/ e = mulm1 (sub l rh)).
    { destruct (Hex w e (or_introl eq_refl)) as [Hin|(_ & He)]; [|exact He]. exfalso. destruct Hw as (_ & Hws & _). apply Hws. left. rewrite ArrObj.dkeys_comps. change w with (fst (w, e)). apply in_map. exact Hin. }
    assert (Hme : forall s, mentions e s -> is_par s = true).
    { intros s Hs. apply Hpar'. destruct He as [-> | ->]; [exact Hs|]. destruct Har as (_ & _ & _ & Hmm & _). exact (proj1 (Hmm _ _) Hs). }
    split.
    { destruct (m_indep cm) as [|s rest] eqn:Ei; [reflexivity|]. exfalso.
      assert (Hs : In s (m_indep cm)) by (rewrite Ei; left; reflexivity).
      rewrite (proj1 (ArrObj.fields ord3 _ cm0 cm Hb)) in Hs.
      apply (in_indep_iff ord3 _ cm0 Ho3 (ArrObj.Hd ord3 _ cm0 cm Hb) (ArrObj.Hi ord3 _ cm0 cm Hb)) in Hs as (Hs & Hp & Hnk).
      destruct Hs as [Hs|(k & e' & [Hin|[]] & Hmn)]; [contradiction|]. injection Hin as <- <-. rewrite (Hme s Hmn) in Hp. discriminate. }
    split; [exact Hps|]. split; [exact Hty|].
    assert (Hsp : forall inp s, is_par s = true -> sol inp s = inp s).
    { intros inp s Hs. apply (proj2 (Hsol inp)). rewrite ArrObj.dkeys_comps. intros Hk'. rewrite (keys_plain s Hk') in Hs. discriminate. }
    split.
    { intros inp. rewrite Hval. f_equal. f_equal; apply eval_ext; intros s Hs; apply Hsp, Hpar; [left|right]; left; exact Hs. }
    split; [exact He|]. intros inp s Hs. apply (proj2 (Hsc inp)). intros [E|[]]. cbn in E. subst s. destruct Hw as ((n & ->) & _). discriminate.
  Qed.
End Alone.

(** *** its Jacobian *)
Section AloneJac.
  Context (simp : expr -> expr) (ord2 : list sym -> list sym) (w : sym) (e : expr) (cm0 cm : amodel).
  Hypothesis Hsimp : simp_ok simp.
  Hypothesis Ho2 : set_order ord2.
  Hypothesis Hb : built ord2 [(w, e)] cm0 cm.
  Hypothesis He : forall s, mentions e s -> is_par s = true.
  Hypothesis Hw : exists n, w = SVar n.
  Hypothesis Hnn : forall p q, In p (m_params cm) -> In q (m_params cm) -> sname p = sname q -> p = q.
  Hypothesis Hdn : forall p q, In p (m_params cm) -> In q (m_params cm) -> sname (der_of w (sname p)) <> sname q.

  Lemma alone_J : exists J, jacobian_items simp ord2 cm = Ok J.
  Proof using Hsimp Ho2 Hb He Hw.
    pose proof Hb as ((_ & _ & _ & Hself & Hplain & _ & Hi) & Hset & _ & Hsub & _).
    assert (Hsym : symbolic (m_dict cm)).
    { destruct (set_params_fields cm0 cm _ Hset) as (E & _). rewrite E. exact (init_symbolic ord2 _ cm0 Hi). }
    assert (Hsh : shallow (comps (V:=R) [(w, e)])).
    { intros k z y (e1 & [Hin|[]] & Hm1) (e2 & [Hin2|[]] & _) _. injection Hin as <- <-. injection Hin2 as E _. subst z. pose proof (He w Hm1) as Hq. destruct Hw as (n & E'). rewrite E' in Hq. discriminate. }
    destruct (shallow_total simp ord2 ord2 (comps [(w, e)]) (mcast cm0) (mcast cm) (m_params cm) Hsimp Ho2 Ho2 (ArrObj.HdR ord2 _ cm0 cm Hb) Hself Hplain
      (ArrObj.HiR ord2 _ cm0 cm Hb) (ArrObj.HpR ord2 _ cm0 cm Hb) Hsh) as (J & H & HJ & _).
    exists (icast J). pose proof (jacobian_items_icast (W:=res nd) simp ord2 (mcast cm) J HJ) as HJ'. rewrite (mcast_back cm Hsym) in HJ'. exact HJ'.
  Qed.
  Lemma alone_apart J : jacobian_items simp ord2 cm = Ok J -> names_apart J cm.
  Proof using Hsimp Ho2 Hb He Hw Hnn Hdn.
    intros HJ. pose proof (ArrObj.AJ simp ord2 ord2 _ cm0 cm Hsimp Ho2 Hb J HJ) as A. destruct Hw as (y & Ew).
    pose proof Hb as (_ & Hset & _ & Hsub & Hpp & Hkp).
    assert (Hkey : forall k, In k (dkeys J) -> k = w \/ exists p, k = der_of w (sname p) /\ In p (m_params cm)).
    { pose proof HJ as HJ'. unfold jacobian_items in HJ'. apply bind_Ok in HJ' as (v2f & Hv & HJ').
      intros k Hk. destruct (J_key_inv simp ord2 _ cm0 cm (m_params cm) v2f (ArrObj.Hd ord2 _ cm0 cm Hb) (proj1 (ArrObj.Hplain ord2 _ cm0 cm Hb)) (ArrObj.Hi ord2 _ cm0 cm Hb) Hset J HJ' k Hk) as [[E|[]]|(y' & p & -> & Hp & [E|[]])].
      - left. symmetry. exact E.
      - right. exists p. split; [|exact Hp]. cbn in E. rewrite E. reflexivity. }
    assert (Hsy : forall s, symbol_of J s -> s = w \/ (exists p, s = der_of w (sname p) /\ In p (m_params cm)) \/ In s (m_params cm)).
    { intros s [Hk|(k & Hr)]; [destruct (Hkey s Hk) as [->|H]; auto|]. right. destruct (is_der s) eqn:Es.
      - left. pose proof (ab_der _ _ A k s Hr Es) as Hk. destruct (Hkey s Hk) as [->|H]; [rewrite Ew in Es; discriminate|exact H].
      - right. pose proof (ab_refers _ _ A k s Hr) as (e1 & [Hin|[]] & Hmn). cbn in Hin. injection Hin as E1 <-.
        assert (Ebs : base s = s) by (destruct s; [reflexivity|reflexivity|discriminate]). rewrite Ebs in Hmn.
        apply Hsub. apply (in_params_iff ord2 _ cm0 Ho2 (ArrObj.Hd ord2 _ cm0 cm Hb) (ArrObj.Hi ord2 _ cm0 cm Hb)).
        split; [right; exists w, e; split; [left; reflexivity|exact Hmn]|]. split; [exact (He s Hmn)|].
        intros t (e2 & [Hin|[]] & _). injection Hin as E2 _. pose proof (He s Hmn) as Hq. rewrite <- E2, Ew in Hq. discriminate. }
    assert (Hwp : forall p, In p (m_params cm) -> sname w <> sname p) by (intros p Hp; apply Hkp; [left; reflexivity|exact Hp]).
    assert (Hwd : forall n, sname (der_of w n) <> sname w).
    { intros n. rewrite Ew. cbn [der_of]. rewrite sname_1. cbn [sname]. intros E. apply (f_equal String.length) in E. cbn in E.
      assert (Hl : forall a b, String.length (a ++ b)%string = (String.length a + String.length b)%nat) by (induction a; intros b; cbn; [reflexivity|rewrite IHa; reflexivity]).
      rewrite Hl in E. lia. }
    split.
    - intros s t Hs Ht E. destruct (Hsy s Hs) as [->|[(p & -> & Hp)|Hp]]; destruct (Hsy t Ht) as [->|[(q & -> & Hq)|Hq]]; try reflexivity.
      + exfalso. exact (Hwd _ (eq_sym E)).
      + exfalso. exact (Hwp t Hq E).
      + exfalso. exact (Hwd _ E).
      + rewrite Ew in E |- *. cbn [der_of] in *. rewrite !sname_1 in E. f_equal. f_equal.
        cbn in E. injection E as E. clear -E. induction y as [|c y IH]; cbn in E; [injection E as E; exact E|]. apply IH. injection E as E. exact E.
      + exfalso. exact (Hdn p t Hp Hq E).
      + exfalso. exact (Hwp s Hp (eq_sym E)).
      + exfalso. exact (Hdn q s Hq Hp (eq_sym E)).
      + apply Hnn; assumption.
    - intros k p Hk Hp E. destruct (Hkey k Hk) as [->|(q & -> & Hq)]; [exact (Hwp p Hp E)|exact (Hdn q p Hq Hp E)].
  Qed.
End AloneJac.

(** *** the constraint as handed to scipy *)
Lemma constraint_handed simp sub mulm1 ord1 ord2 es m sol us toward0 h cons o mc absolute args kw f mn local n u :
  let om := om_of KModel simp ord2 m in
  let ps := m_params m in
  simp_ok simp -> sympy_arithmetic sub mulm1 -> keeps_defined sub mulm1 -> set_order ord2 -> model_of ord1 es m -> means es sol -> ps <> [] ->
  good_constraints es us -> init_constraints KModel simp sub mulm1 ord2 m us = Ok cons ->
  fit_init toward0 h {| fm_om := om; fm_len := List.length es |} cons o mc absolute args kw = Ok f ->
  (mc = MDefault \/ exists c, mc = MItem (MCls c)) -> ft_min f = FMin mn local ->
  uses_constraints (mi_class mn) = true -> uses_jacobian (mi_class mn) = true ->
  nth_error us n = Some u -> only_parameters u -> derivative_names_free ps u ->
  exists k w, nth_error (pb_cons (execute_problem h mn DNone DNone)) n = Some k /\ handed_jac k = Some w /\
    (forall v, imposes k v <-> match uc_rel u with REq => v = 0 | _ => 0 <= v end) /\
    forall x, List.length x = nfree h ps ->
      (exists c, handed_fun k x = Ok c /\ shp c = [1%nat] /\ val c [0%nat] = constraint_value u (parameter_value h ps x)) /\
      (defined (parameter_value h ps x) (uc_left u) -> defined (parameter_value h ps x) (uc_right u) ->
       exists g, w x = Ok g /\ shp g = [nfree h ps] /\ forall i p, nth_error (free_of_list h ps) i = Some p ->
         derivative_in (constraint_value u) (parameter_value h ps x) p (val g [i])).
Proof.
  intros om ps Hsimp Har Hkd Ho2 Hm Hsol Hne Hgc Hcons Hf Hmc Hmin Huc Huj Hu Honly Hdn.
  assert (Hmade : init_class h om cons (objective_data (ft_data f)) (ft_class f) (ft_obj f) (mi_class mn) = Ok mn).
  { destruct (fit_init_inv toward0 h _ cons o mc absolute args kw f Hf) as (t & _ & _ & _ & _ & H).
    assert (Hit : exists c, init_item toward0 h om cons (objective_data (ft_data f)) (ft_class f) (ft_obj f) (MCls c) = Ok (ft_min f)).
    { destruct Hmc as [E|(c & E)]; rewrite E in H; cbn [init_choice fm_om] in H; eauto. }
    destruct Hit as (c & Hit). destruct (item_class KModel simp ord2 m toward0 h cons f c Hit) as (mn' & lc & H1 & H2 & H3). rewrite Hmin in H1. injection H1 as <- <-. rewrite H2. exact H3. }
  pose proof (cons_are KModel simp sub mulm1 ord2 m us cons Hcons) as H2. destruct (Forall2_at _ _ _ H2 n u Hu) as (c & Hc & cm & Ha & Hoc).
  pose proof (ArrObj.NoDup_ps ord1 es m m (ArrObj.built_self ord1 es m Hm)) as Hnd.
  destruct (class_equipped toward0 h _ cons o mc absolute args kw f (mi_class mn) mn Hf Hmade Hnd) as (_ & _ & _ & Hhc).
  destruct (Hhc Huc) as (_ & Hall). destruct (Hall n c Hc) as (k & ob & Hk & Hob & Himp & Hfun & Hjac).
  assert (Hjs : om_jac (fc_om c) <> None) by (rewrite Hoc; discriminate).
  destruct (Hjac Huj Hjs Hnd) as (w & Hw & Hwx). exists k, w. split; [exact Hk|]. split; [exact Hw|].
  destruct (Hgc u (nth_error_In _ _ Hu)) as (Hcn & Hpl).
  destruct (alone_built sub mulm1 ord1 ord2 es m sol (uc_name u) (uc_rel u) (uc_left u) (uc_right u) cm (fc_rel c) Hm Hsol Har Ho2 Hcn Hpl Ha Honly)
    as (e & cm0 & solc & Hb & Hsc & Hdep & Hind & Hps & Hty & Hval & He & Hpar).
  split.
  { intros v. rewrite Himp. destruct Hty as [(E & E')|[(E & E')|(E & E')]]; rewrite E, E'; reflexivity. }
  destruct Har as (Hse & _ & Hsm & Hmm & _).
  assert (Hep : forall s, mentions e s -> is_par s = true).
  { intros s Hs. apply Honly. apply Hsm. destruct He as [-> | ->]; [exact Hs|exact (proj1 (Hmm _ _) Hs)]. }
  assert (Hnn : forall p q, In p (m_params cm) -> In q (m_params cm) -> sname p = sname q -> p = q).
  { rewrite Hps. intros p q Hp Hq E. destruct Hm as (Ho1 & Hn0 & Hdist & _ & _ & _ & Hi).
    assert (HdR : is_dict (comps (V:=R) es)) by (unfold is_dict; rewrite ArrObj.dkeys_comps; exact Hn0).
    assert (HiR : init_model ord1 (comps (V:=R) es) = Ok (mcast m)) by (rewrite <- (icast_comps (V:=res nd)); apply init_icast; exact Hi).
    apply Hdist; [apply (in_params_iff ord1 _ _ Ho1 HdR HiR) in Hp; tauto|apply (in_params_iff ord1 _ _ Ho1 HdR HiR) in Hq; tauto|exact E]. }
  assert (Hdn' : forall p q, In p (m_params cm) -> In q (m_params cm) -> sname (der_of (uc_name u) (sname p)) <> sname q) by (rewrite Hps; exact Hdn).
  pose proof (proj1 Hcn) as Hwv.
  destruct (alone_J simp ord2 _ e cm0 cm Hsimp Ho2 Hb Hep Hwv) as (J & HJ).
  pose proof (alone_apart simp ord2 _ e cm0 cm Hsimp Ho2 Hb Hep Hwv Hnn Hdn' J HJ) as Hap.
  assert (HsJ : exists solJ, solves_for J solJ).
  { pose proof (ArrObj.AJ simp ord2 ord2 _ cm0 cm Hsimp Ho2 Hb J HJ) as A. pose proof (ArrObj.Hself ord2 _ cm0 cm Hb) as Hse'.
    destruct (above_init ord2 _ cm0 Ho2 (ArrObj.Hd ord2 _ cm0 cm Hb) Hse' (proj1 (ArrObj.Hplain ord2 _ cm0 cm Hb)) (ArrObj.Hi ord2 _ cm0 cm Hb) J A (proj1 Hap) ord2 Ho2) as (xm & Hx).
    exact (solution_map Ralg ord2 (icast J) (mcast xm) Ho2 (is_dict_icast J (ab_dict _ _ A)) (noself_icast J (above_self _ Hse' J A)) (init_icast ord2 J xm Hx)). }
  destruct HsJ as (solJ & HsJ).
  assert (Hgr : independent_on_grid [1%nat] cm (objective_data (ft_data f))) by (split; [intros [H|[]]; discriminate|rewrite Hind; intros v []]).
  assert (Hcls : KModel <> KCallable) by discriminate.
  assert (Hne' : m_params cm <> []) by (rewrite Hps; exact Hne).
  rewrite Hoc in Hob. intros x Hl.
  assert (Hfv : full_vector h cm x) by (unfold full_vector; rewrite Hps; exact Hl).
  destruct (ArrObj.model_mm simp ord2 ord2 _ cm0 cm Hsimp Ho2 Hb solc Hsc h (objective_data (ft_data f)) [1%nat] KModel Hgr J solJ HJ Hap HsJ Hne' Hcls ob x (uc_name u) Hob Hdep Hfv)
    as (cv & j & A1 & A2 & A3 & (a & Ea & Hga) & A5 & A6).
  assert (Ecv : shp cv = [1%nat]) by (rewrite Ea; apply shape1; exact Hga).
  rewrite Ecv in A3, A5, A6. rewrite Hps in *.
  assert (Hinp : forall z i s, is_par s = true -> at_index (inputs h ps (objective_data (ft_data f)) z) i s = parameter_value h ps z s).
  { intros z i s Hs. unfold at_index, inputs. rewrite Hs. apply elem_scalar. }
  assert (Hpred : forall z i, predicted solc h ps (objective_data (ft_data f)) z (uc_name u) i = constraint_value u (parameter_value h ps z)).
  { intros z i. unfold predicted. rewrite Hval. unfold constraint_value.
    assert (El : eval Ralg (at_index (inputs h ps (objective_data (ft_data f)) z) i) (uc_left u) = eval Ralg (parameter_value h ps z) (uc_left u)) by (apply eval_ext; intros s Hs; apply Hinp, Honly; left; left; exact Hs).
    assert (Er : eval Ralg (at_index (inputs h ps (objective_data (ft_data f)) z) i) (uc_right u) = eval Ralg (parameter_value h ps z) (uc_right u)) by (apply eval_ext; intros s Hs; apply Hinp, Honly; right; left; exact Hs).
    rewrite El, Er. destruct Hty as [(E & _)|[(E & _)|(E & _)]]; rewrite E; cbn [signed]; ring. }
  split.
  - exists cv. rewrite Hfun, Hoc. split; [exact A1|]. split; [exact Ecv|]. rewrite (A5 [0%nat] (or_introl eq_refl)). apply Hpred.
  - intros Dl Dr.
    assert (Hin : forall s, mentions (sub (uc_left u) (uc_right u)) s -> In s ps).
    { intros s Hs. assert (Hs' : mentions e s) by (destruct He as [-> | ->]; [exact Hs|exact (proj2 (Hmm _ _) Hs)]).
      unfold ps. rewrite <- Hps. apply Hb. apply (in_params_iff ord2 _ cm0 Ho2 (ArrObj.Hd ord2 _ cm0 cm Hb) (ArrObj.Hi ord2 _ cm0 cm Hb)).
      split; [right; exists (uc_name u), e; split; [left; reflexivity|exact Hs']|]. split; [exact (Hep s Hs')|].
      intros t (e2 & [Hin|[]] & _). injection Hin as E2 _. pose proof (Hep s Hs') as Hq. destruct Hwv as (y & Ew). rewrite <- E2, Ew in Hq. discriminate. }
    assert (Hext : forall t1 t2, (forall q, In q ps -> t1 q = t2 q) -> constraint_value u t1 = constraint_value u t2).
    { intros t1 t2 Hq. assert (E : eval Ralg t1 (sub (uc_left u) (uc_right u)) = eval Ralg t2 (sub (uc_left u) (uc_right u))) by (apply eval_ext; intros s Hs; apply Hq, Hin; left; exact Hs).
      rewrite !Hse in E. unfold constraint_value. destruct (uc_rel u); lra. }
    assert (Hdef : defined_at [1%nat] [(uc_name u, e)] solc h cm (objective_data (ft_data f)) x).
    { intros i k' e' Hi' [Hin'|[]]. injection Hin' as <- <-. rewrite Hps.
      assert (Hd1 : forall g, (forall s, mentions g s -> is_par s = true) -> defined (parameter_value h ps x) g -> defined (solc (at_index (inputs h ps (objective_data (ft_data f)) x) i)) g).
      { intros g Hg. apply defined_ext. intros s Hs. pose proof (Hg s (or_introl Hs)) as Hq. rewrite (Hpar _ s Hq). symmetry. apply Hinp; exact Hq. }
      apply Hd1; [exact Hep|]. destruct Hkd as [K1 K2]. destruct He as [-> | ->]; [|apply K2]; apply K1; assumption. }
    destruct (Hwx x j) as (g & Hg & Hgs & Hgv).
    { rewrite Hoc. exact A2. }
    { exists 1%nat. exact A3. }
    exists g. split; [exact Hg|]. split; [exact Hgs|]. intros i p Hi.
    pose proof (nth_error_In _ _ Hi) as Hpf. apply filter_In in Hpf as [Hpp _]. apply In_nth_error in Hpp as (kk & Hkk).
    rewrite (Hgv p i kk (conj Hi Hkk)). unfold gradient_entry. rewrite A3. cbn [List.length Nat.sub repeat app].
    assert (Hfa : ArrObj.free_at m h p i) by exact Hi.
    assert (Hii : (i < List.length x)%nat) by exact (ArrObj.free_len m h x p i Hl Hfa).
    apply (partial_gen ord1 es m h Hm (constraint_value u) (fun z => predicted solc h ps (objective_data (ft_data f)) z (uc_name u) [0%nat]) x p i); [exact Hext|intros z; apply Hpred|exact Hfa|exact Hii|].
    assert (Hfc : ArrObj.free_at cm h p i) by (unfold ArrObj.free_at; rewrite Hps; exact Hi).
    exact (A6 Hdef [0%nat] p i kk (or_introl eq_refl) Hkk Hfc).
Qed.
