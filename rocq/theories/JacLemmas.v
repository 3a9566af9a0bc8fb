(** * JacLemmas: evaluation of the Jacobian and the Hessian. *)
From Coq Require Import Reals Lra.
From Coquelicot Require Import Coquelicot.
From Coq Require Import Relations.
From Verif Require Import PyBase PyFacts Toposort ToposortFacts Signature SignatureFacts Expr Model ModelSpec ModelFacts CallFacts InitFacts ConstraintFacts AsConstraint ModelMisc ExprR Jacobian JacFacts JacAnalysis Twice JacSecond.
Local Open Scope R_scope.

Lemma set_params_self {V} ord (items : dict sym (comp (V:=V))) m : init_model ord items = Ok m -> set_params m (m_params m) = Ok m.
Proof.
  intros Hi. destruct (init_model_inv _ _ _ Hi) as (_ & _ & _ & Hc).
  destruct (classify_inv _ _ _ _ Hc) as (l0 & mid & top & _ & _ & _ & _ & _ & _ & _ & Hsig & _).
  unfold set_params. rewrite Hsig. simpl. destruct m; reflexivity.
Qed.

Lemma dget_call_out {V} (keys : list sym) (val : sym -> V) k : NoDup keys -> In k keys ->
  dget (mo_dict {| mo_vars := keys; mo_out := map val keys |}) k = Some (val k).
Proof.
  intros Hnd Hk. unfold mo_dict. simpl.
  assert (Hf : map fst (combine keys (map val keys)) = keys).
  { clear. induction keys as [|x l IH]; simpl; [reflexivity|]. rewrite IH; reflexivity. }
  rewrite dict_of_nodup by (rewrite Hf; exact Hnd).
  apply In_dget; [unfold dkeys; rewrite Hf; exact Hnd|].
  clear -Hk. induction keys as [|x l IH]; simpl in *; [contradiction|]. destruct Hk as [->|Hk]; auto.
Qed.

Section Lemmas.
  Notation comp := (comp (V:=R)).
  Notation model := (model (V:=R)).
  Context (simp : expr -> expr) (ord1 ord2 : list sym -> list sym) (items : dict sym comp) (m0 m : model) (ps : list sym).
  Hypothesis Hsimp : simp_ok simp.
  Hypothesis Ho1 : set_order ord1.
  Hypothesis Ho2 : set_order ord2.
  Hypothesis Hd : is_dict items.
  Hypothesis Hself : no_self_reference items.
  Hypothesis Hplain : plain_model items.
  Hypothesis Hi : init_model ord1 items = Ok m0.
  Hypothesis Hp : set_params m0 ps = Ok m.
  Hypothesis Hps : forall p, In p ps -> is_par p = true.
  Hypothesis Hsub : forall p, In p (m_params m0) -> In p ps.
  Context (sol : (sym -> R) -> sym -> R).
  Hypothesis Hsol : forall inp, solution Ralg items inp (sol inp).
  Let Hkeys := proj1 Hplain.
  Let Hnoder := proj2 Hplain.

  Lemma eval_jacobian_gen J inp :
    jacobian_items simp ord2 m = Ok J -> distinct_names J ->
    (forall k p, In k (dkeys J) -> In p ps -> sname k <> sname p) ->
    (forall k e, In (k, CExpr e) items -> defined (sol inp) e) ->
    exists d : sym -> sym -> R,
      (forall v p, In v (dkeys items) -> In p ps -> is_derive (fun t => sol (upd inp p t) v) (inp p) (d v p)) /\
      (forall args kw, supplies (named inp (m_indep m ++ m_params m)) args kw ->
        eval_jacobian Ralg simp ord2 m args kw = Ok (map (fun v => map (d v) ps) (dkeys (m_dict m)))).
  Proof.
    intros HJ Hn Hpn Hdef. destruct (set_params_fields m0 m ps Hp) as (E1 & E2 & E3 & E4).
    unfold jacobian_items in HJ. apply bind_Ok in HJ as (v2f & Hv & HJ). rewrite E4 in HJ.
    pose proof (above_J simp (proj1 Hsimp) ord1 ord2 items m0 m ps v2f Ho1 Ho2 Hd Hself Hkeys Hnoder Hi Hp Hv J HJ) as AJ.
    destruct (above_call Ralg ord1 items m0 m ps Ho1 Hd Hself Hkeys Hnoder Hi Hp J AJ Hn ord2 Ho2 Hsub Hpn) as (xm & xm' & Hx & Hx' & Hcall).
    destruct (Hcall ord2 inp Ho2) as (valJ & HsJ & Hc).
    exists (fun v p => valJ (der_of v (sname p))). split.
    - intros v p Hvk Hpp.
      pose proof (first_order simp ord1 ord2 items m0 m ps v2f Hsimp Ho1 Ho2 Hd Hself Hkeys Hnoder Hi Hp Hps Hv sol Hsol J HJ p inp valJ Hpp HsJ Hdef v (or_introl Hvk)) as Hf.
      unfold dval in Hf. rewrite (proj2 (inb_In v (dkeys items)) Hvk) in Hf. exact Hf.
    - intros args kw Hsup. unfold eval_jacobian, jacobian_model, jacobian_items. rewrite Hv. cbn [bind]. rewrite E4, HJ. cbn [bind]. rewrite Hx. cbn [bind].
      rewrite Hx'. cbn [bind]. rewrite (Hc args kw Hsup). cbn [bind]. f_equal.
      apply map_ext_in. intros v Hvk. apply (m_dict_key ord1 items m0 m ps Hi Hp) in Hvk. apply map_ext_in. intros p Hpp.
      unfold out_or_zero. destruct (Hkeys v Hvk) as (y & ->). simpl der_of.
      rewrite dget_call_out; [reflexivity|apply NoDup_sort_by; apply (ab_dict _ _ AJ)|].
      apply in_sort_by. apply (J_der_key simp ord1 items m0 m ps v2f Hd Hi Hp J HJ y p Hvk Hpp).
  Qed.

  Lemma eval_hessian_gen H inp eps :
    hessian_items simp ord2 m = Ok H -> distinct_names H ->
    (forall k p, In k (dkeys H) -> In p ps -> sname k <> sname p) -> 0 < eps ->
    (forall inp', (forall s, Rabs (inp' s - inp s) < eps) -> (forall s, is_par s = false -> inp' s = inp s) ->
       forall k e, In (k, CExpr e) items -> defined (sol inp') e) ->
    exists h : sym -> sym -> sym -> R,
      (forall v p q, In v (dkeys items) -> In p ps -> In q ps ->
         is_derive (fun u => Derive (fun t => sol (upd (upd inp q u) p t) v) (upd inp q u p)) (inp q) (h v p q)) /\
      (forall args kw, supplies (named inp (m_indep m ++ m_params m)) args kw ->
        eval_hessian Ralg simp ord2 m args kw = Ok (map (fun v => map (fun p => map (h v p) ps) ps) (dkeys (m_dict m)))).
  Proof.
    intros HH Hn Hpn Heps Hloc. destruct (set_params_fields m0 m ps Hp) as (E1 & E2 & E3 & E4).
    unfold hessian_items in HH. apply bind_Ok in HH as (v2f & Hv & HH). rewrite E4 in HH. apply bind_Ok in HH as (J & HJ & HH).
    pose proof (above_J simp (proj1 Hsimp) ord1 ord2 items m0 m ps v2f Ho1 Ho2 Hd Hself Hkeys Hnoder Hi Hp Hv J HJ) as AJ.
    pose proof (above_H simp (proj1 Hsimp) ord1 ord2 items m0 m ps v2f Ho1 Ho2 Hd Hself Hkeys Hnoder Hi Hp Hv J H HJ HH) as AH.
    assert (HnJ : distinct_names J).
    { assert (Hsb : forall s, symbol_of J s -> symbol_of H s).
      { intros s [Hk|(k & e & Hin & Hm)].
        - left. apply in_map_iff in Hk as ([k c] & Hk & Hin). simpl in Hk; subst k. eapply key_of. eapply (H_keep simp m ps v2f J H HJ HH); exact Hin.
        - right. exists k, e. split; [eapply (H_keep simp m ps v2f J H HJ HH); exact Hin|exact Hm]. }
      intros s t Hs Ht. apply Hn; auto. }
    destruct (above_call Ralg ord1 items m0 m ps Ho1 Hd Hself Hkeys Hnoder Hi Hp H AH Hn ord2 Ho2 Hsub Hpn) as (xm & xm' & Hx & Hx' & Hcall).
    destruct (Hcall ord2 inp Ho2) as (valH & HsH & Hc).
    destruct (above_init ord1 items m0 Ho1 Hd Hself Hkeys Hi J AJ HnJ ord1 Ho1) as (jm & Hjm).
    destruct (solution_map Ralg ord1 J jm Ho1 (ab_dict _ _ AJ) (above_self items Hself J AJ) Hjm) as (solJ & HsJ).
    exists (fun v p q => valH (der_of (der_of v (sname p)) (sname q))). split.
    - intros v p q Hvk Hpp Hq. destruct (Hkeys v Hvk) as (y & ->).
      assert (Hss : symbol_of items (SVar y)) by (left; exact Hvk).
      pose proof (second_order simp ord1 ord2 items m0 m ps v2f Hsimp Ho1 Ho2 Hd Hself Hkeys Hnoder Hi Hp Hps Hv sol Hsol J H HJ HH HnJ
        inp valH solJ eps HsH HsJ Heps Hloc (SVar y) Hss p q Hpp Hq) as Hso.
      unfold dval2 in Hso. rewrite (proj2 (inb_In _ (dkeys items)) Hvk) in Hso. simpl der_of.
      eapply is_derive_ext_loc; [|exact Hso].
      eapply filter_imp; [|exact (near items ps Hps sol inp eps Heps Hloc q Hq)]. intros u Hu. cbv beta.
      symmetry. apply (sym_derived simp ord1 ord2 items m0 m ps v2f Hsimp Ho1 Ho2 Hd Hself Hkeys Hnoder Hi Hp Hps Hv sol Hsol J HJ solJ HsJ p (SVar y) (upd inp q u) Hpp Hss Hu).
    - intros args kw Hsup. unfold eval_hessian, hessian_model, hessian_items. rewrite Hv. cbn [bind]. rewrite E4, HJ. cbn [bind]. rewrite HH. cbn [bind]. rewrite Hx. cbn [bind].
      rewrite Hx'. cbn [bind]. rewrite (Hc args kw Hsup). cbn [bind]. f_equal.
      apply map_ext_in. intros v Hvk. apply (m_dict_key ord1 items m0 m ps Hi Hp) in Hvk. apply map_ext_in. intros p Hpp. apply map_ext_in. intros q Hq.
      unfold out_or_zero. destruct (Hkeys v Hvk) as (y & ->). simpl der_of.
      rewrite dget_call_out; [reflexivity|apply NoDup_sort_by; apply (ab_dict _ _ AH)|].
      apply in_sort_by. apply (H_der_key simp ord1 items m0 m ps v2f Hd Hi Hp J H HJ HH y p q Hvk Hpp Hq).
  Qed.

  (** the parameters of the model itself never clash with a component name *)
  Lemma names_apart v2f J X : vars_as_functions ord2 m = Ok v2f -> jac_items simp v2f ps (m_dict m) = Ok J ->
    ps = m_params m0 -> above items X -> distinct_names X ->
    forall k p, In k (dkeys X) -> In p ps -> sname k <> sname p.
  Proof.
    intros Hv HJ Hq AX Hn k p Hk Hpp He. subst ps.
    assert (Hsp : symbol_of items p) by (apply (in_params_iff ord1 items m0 Ho1 Hd Hi) in Hpp; tauto).
    assert (Hpar : is_par p = true) by (apply Hps; exact Hpp).
    assert (k = p). { apply Hn; [left; exact Hk| |exact He]. apply (above_symbols items Hkeys Hnoder X AX); [destruct p; auto; discriminate|exact Hsp]. }
    subst k. rewrite (above_nonpar items Hkeys X AX p Hk) in Hpar. discriminate.
  Qed.

  (** *** when the Jacobian can be formed *)
  Definition shallow : Prop := forall k z y, refers items k z -> refers items z y -> ~ In y (dkeys items).

  Lemma diff_total ds e : (forall s, In s (occs e) -> exists e1, ds s = Ok e1) -> exists e', diff ds e = Ok e'.
  Proof.
    induction e as [z|s|a IHa b IHb|a IHa b IHb|a IHa n|a IHa|f a IHa]; simpl; intros Hds.
    - eauto.
    - apply Hds; auto.
    - destruct IHa as (a' & ->); [intros; apply Hds, in_or_app; auto|]. destruct IHb as (b' & ->); [intros; apply Hds, in_or_app; auto|]. simpl; eauto.
    - destruct IHa as (a' & ->); [intros; apply Hds, in_or_app; auto|]. destruct IHb as (b' & ->); [intros; apply Hds, in_or_app; auto|]. simpl; eauto.
    - destruct IHa as (a' & ->); [auto|]. simpl; eauto.
    - destruct IHa as (a' & ->); [auto|]. simpl; eauto.
    - destruct IHa as (a' & ->); [auto|]. simpl; eauto.
  Qed.
  Lemma mapM_total {X Y} (f : X -> res Y) l : (forall x, In x l -> exists y, f x = Ok y) -> exists l', mapM f l = Ok l'.
  Proof.
    induction l as [|x l IH]; simpl; intros Hf; [eauto|]. destruct (Hf x) as (y & ->); [auto|]. destruct IH as (l' & ->); [auto|]. simpl; eauto.
  Qed.
  Lemma diff_sym_shallow v2f k s p : vars_as_functions ord2 m = Ok v2f -> shallow -> refers items k (base s) ->
    exists e, diff_sym v2f p s = Ok e.
  Proof.
    intros Hv Hsh Hr. destruct (in_dec eq_dec (base s) (dkeys items)) as [Hk|Hk].
    - unfold diff_sym. destruct (v2f_key ord1 ord2 items m0 m ps v2f Ho1 Ho2 Hd Hself Hi Hp Hv _ Hk) as (deps & Hdeps & Hnd & ->).
      assert (Hmap : map (repl v2f) deps = map FSym deps).
      { apply map_ext_in. intros d Hdd. unfold repl. rewrite (v2f_nonkey ord1 ord2 items m0 m ps v2f Ho1 Ho2 Hd Hself Hi Hp Hv d); [reflexivity|].
        apply (Hsh k (base s)); [exact Hr|apply Hdeps; exact Hdd]. }
      rewrite Hmap. clear Hdeps Hmap.
      assert (Hf : filter (fun a => inb p (ffree a)) (map FSym deps) = [] \/ filter (fun a => inb p (ffree a)) (map FSym deps) = [FSym p]).
      { induction deps as [|d deps IH]; [left; reflexivity|]. inv Hnd. simpl. destruct (inb p [d]) eqn:Hb.
        - apply inb_In in Hb as [->|[]]. right. f_equal. clear -H1.
          induction deps as [|d' deps IH]; simpl; [reflexivity|]. simpl in H1.
          destruct (inb p [d']) eqn:Hb; [apply inb_In in Hb as [->|[]]; tauto|]. apply IH. tauto.
        - apply IH; assumption. }
      destruct Hf as [-> | ->]; eauto.
    - rewrite (diff_sym_other ord1 ord2 items m0 m ps v2f Ho1 Ho2 Hd Hself Hi Hp Hv s p Hk). eauto.
  Qed.
  Lemma jac_items_total v2f (X : dict sym comp) : vars_as_functions ord2 m = Ok v2f -> shallow -> symbolic X ->
    (forall x t, refers X x t -> refers items (base x) (base t)) -> exists Y, jac_items simp v2f ps X = Ok Y.
  Proof.
    intros Hv Hsh Hs Hr. unfold jac_items, jac_rows.
    match goal with |- context [mapM ?f X] => destruct (mapM_total f X) as (rows & ->) end; [|simpl; eauto].
    intros [k c] Hin. simpl. apply mapM_total. intros p Hpp. destruct (Hs k c Hin) as (e & ->).
    destruct (diff_total (diff_sym v2f p) e) as (e' & ->); [|simpl; eauto].
    intros s Hso. apply (diff_sym_shallow v2f (base k)); [exact Hv|exact Hsh|]. apply Hr. exists e. split; [exact Hin|left; exact Hso].
  Qed.
  Lemma shallow_total : shallow -> exists J H, jacobian_items simp ord2 m = Ok J /\ hessian_items simp ord2 m = Ok H.
  Proof.
    intros Hsh. destruct (set_params_fields m0 m ps Hp) as (E1 & E2 & E3 & E4).
    assert (Hv : exists v2f, vars_as_functions ord2 m = Ok v2f).
    { unfold vars_as_functions. destruct (layers_of_init ord1 items m0 Ho1 Hi) as (l0 & mid & top & Ht & _).
      rewrite <- E2 in Ht. destruct (toposort_ordered ord2 m _ Ht) as (syms & ->). simpl; eauto. }
    destruct Hv as (v2f & Hv).
    destruct (jac_items_total v2f (m_dict m) Hv Hsh) as (J & HJ).
    { eapply symbolic_perm; [exact (m_dict_perm ord1 items m0 m ps Hi Hp)|]. exact (proj1 (init_model_inv _ _ _ Hi)). }
    { intros x t Hr. apply (m_dict_refers ord1 items m0 m ps Hi Hp) in Hr. destruct (refers_items_base items Hkeys Hnoder _ _ Hr) as [-> ->]. exact Hr. }
    pose proof (above_J simp (proj1 Hsimp) ord1 ord2 items m0 m ps v2f Ho1 Ho2 Hd Hself Hkeys Hnoder Hi Hp Hv J HJ) as AJ.
    destruct (jac_items_total v2f J Hv Hsh (ab_sym _ _ AJ) (ab_refers _ _ AJ)) as (H & HH).
    exists J, H. unfold jacobian_items, hessian_items. rewrite Hv. simpl. rewrite E4, HJ. simpl. auto.
  Qed.
End Lemmas.

Lemma jacobian_spec :
  forall simp ord1 ord2 (items : dict sym (comp (V:=R))) m J sol inp,
    simp_ok simp -> set_order ord1 -> set_order ord2 ->
    is_dict items -> no_self_reference items -> plain_model items ->
    init_model ord1 items = Ok m -> jacobian_items simp ord2 m = Ok J -> distinct_names J ->
    (forall inp', solution Ralg items inp' (sol inp')) ->
    (forall k e, In (k, CExpr e) items -> defined (sol inp) e) ->
    exists d : sym -> sym -> R,
      (forall v p, In v (dkeys items) -> In p (m_params m) ->
         is_derive (fun t => sol (set_input inp p t) v) (inp p) (d v p)) /\
      (forall args kw, supplies (named inp (m_indep m ++ m_params m)) args kw ->
         eval_jacobian Ralg simp ord2 m args kw = Ok (map (fun v => map (d v) (m_params m)) (dkeys (m_dict m)))).
Proof.
  intros simp ord1 ord2 items m J sol inp Hs Ho1 Ho2 Hd Hself Hpl Hi HJ Hn Hsol Hdef.
  pose proof (set_params_self ord1 items m Hi) as Hp.
  assert (Hps : forall p, In p (m_params m) -> is_par p = true) by (intros p H; apply (in_params_iff ord1 items m Ho1 Hd Hi) in H; tauto).
  apply (eval_jacobian_gen simp ord1 ord2 items m m (m_params m) Hs Ho1 Ho2 Hd Hself Hpl Hi Hp Hps (fun p H => H) sol Hsol J inp HJ Hn); [|exact Hdef].
  pose proof HJ as HJ'. unfold jacobian_items in HJ'. apply bind_Ok in HJ' as (v2f & Hv & HJ').
  apply (names_apart simp ord1 ord2 items m m (m_params m) Ho1 Hd Hpl Hi Hp Hps (fun p H => H) v2f J J Hv HJ' eq_refl); [|exact Hn].
  exact (above_J simp (proj1 Hs) ord1 ord2 items m m (m_params m) v2f Ho1 Ho2 Hd Hself (proj1 Hpl) (proj2 Hpl) Hi Hp Hv J HJ').
Qed.

Lemma hessian_spec :
  forall simp ord1 ord2 (items : dict sym (comp (V:=R))) m H sol inp eps,
    simp_ok simp -> set_order ord1 -> set_order ord2 ->
    is_dict items -> no_self_reference items -> plain_model items ->
    init_model ord1 items = Ok m -> hessian_items simp ord2 m = Ok H -> distinct_names H ->
    (forall inp', solution Ralg items inp' (sol inp')) -> 0 < eps ->
    (forall inp', (forall s, Rabs (inp' s - inp s) < eps) -> (forall s, is_par s = false -> inp' s = inp s) ->
       forall k e, In (k, CExpr e) items -> defined (sol inp') e) ->
    exists h : sym -> sym -> sym -> R,
      (forall v p q, In v (dkeys items) -> In p (m_params m) -> In q (m_params m) ->
         is_derive (fun u => Derive (fun t => sol (set_input (set_input inp q u) p t) v) (set_input inp q u p)) (inp q) (h v p q)) /\
      (forall v p q, In v (dkeys items) -> In p (m_params m) -> In q (m_params m) -> h v p q = h v q p) /\
      (forall args kw, supplies (named inp (m_indep m ++ m_params m)) args kw ->
         eval_hessian Ralg simp ord2 m args kw =
         Ok (map (fun v => map (fun p => map (h v p) (m_params m)) (m_params m)) (dkeys (m_dict m)))).
Proof.
  intros simp ord1 ord2 items m H sol inp eps Hs Ho1 Ho2 Hd Hself Hpl Hi HH Hn Hsol Heps Hloc.
  pose proof (set_params_self ord1 items m Hi) as Hp.
  assert (Hps : forall p, In p (m_params m) -> is_par p = true) by (intros p Hq; apply (in_params_iff ord1 items m Ho1 Hd Hi) in Hq; tauto).
  destruct (eval_hessian_gen simp ord1 ord2 items m m (m_params m) Hs Ho1 Ho2 Hd Hself Hpl Hi Hp Hps (fun p Hq => Hq) sol Hsol H inp eps HH Hn) as (h & H1 & H2); [|exact Heps|exact Hloc|].
  { pose proof HH as HH'. unfold hessian_items in HH'. apply bind_Ok in HH' as (v2f & Hv & HH'). apply bind_Ok in HH' as (J & HJ & HH').
    apply (names_apart simp ord1 ord2 items m m (m_params m) Ho1 Hd Hpl Hi Hp Hps (fun p H => H) v2f J H Hv HJ eq_refl); [|exact Hn].
    exact (above_H simp (proj1 Hs) ord1 ord2 items m m (m_params m) v2f Ho1 Ho2 Hd Hself (proj1 Hpl) (proj2 Hpl) Hi Hp Hv J H HJ HH'). }
  exists h. split; [exact H1|]. split; [|exact H2].
  intros v p q Hv Hpp Hq. destruct (eq_dec p q) as [->|Hne]; [reflexivity|].
  assert (Hss : symbol_of items v) by (left; exact Hv).
  assert (Hvf : exists v2f, vars_as_functions ord2 m = Ok v2f).
  { unfold hessian_items in HH. apply bind_Ok in HH as (v2f & Hvv & _). eauto. }
  destruct Hvf as (v2f & Hvf).
  pose proof (sol_twice ord1 ord2 items m m (m_params m) v2f Ho1 Ho2 Hd Hself Hi Hp Hps Hvf sol Hsol inp eps Heps Hloc p q v Hpp Hq Hne Hss) as Htw.
  assert (Hext := sol_ext ord1 ord2 items m m (m_params m) v2f Ho1 Ho2 Hd Hself Hi Hp Hvf sol Hsol).
  apply (twice_schwarz _ _ _ _ _ Htw).
  - eapply is_derive_ext; [|exact (H1 v p q Hv Hpp Hq)]. intros u. cbv beta. rewrite (upd_ne inp q u p) by exact Hne.
    apply Derive_ext. intros t. apply Hext; [|exact Hss]. intros s. symmetry. apply upd_comm; exact Hne.
  - eapply is_derive_ext; [|exact (H1 v q p Hv Hq Hpp)]. intros t. cbv beta. rewrite (upd_ne inp p t q) by congruence. reflexivity.
Qed.

Lemma shallow_spec :
  forall simp ord1 ord2 (items : dict sym (comp (V:=R))) m,
    simp_ok simp -> set_order ord1 -> set_order ord2 ->
    is_dict items -> no_self_reference items -> plain_model items ->
    init_model ord1 items = Ok m ->
    (forall k z y, refers items k z -> refers items z y -> ~ In y (dkeys items)) ->
    exists J H, jacobian_items simp ord2 m = Ok J /\ hessian_items simp ord2 m = Ok H.
Proof.
  intros simp ord1 ord2 items m Hs Ho1 Ho2 Hd Hself Hpl Hi Hsh.
  pose proof (set_params_self ord1 items m Hi) as Hp.
  eapply (shallow_total simp ord1 ord2 items m m (m_params m)); eauto.
Qed.
