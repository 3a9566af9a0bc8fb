(** * ModelFacts: proofs about Model.v *)
From Verif Require Import PyBase PyFacts Toposort ToposortFacts Signature SignatureFacts Expr Model ModelSpec.
From Coq Require Import Relations.

(** ** Expressions *)
Section ExprFacts.
  Context {V : Type} (A : alg V).

  Lemma eval_ext env env' e : (forall s, In s (occs e) -> env s = env' s) -> eval A env e = eval A env' e.
  Proof.
    induction e as [z|s|a IHa b IHb|a IHa b IHb|a IHa n|a IHa|f a IHa]; simpl; intros He; auto.
    - rewrite IHa, IHb by (intros; apply He, in_or_app; auto). reflexivity.
    - rewrite IHa, IHb by (intros; apply He, in_or_app; auto). reflexivity.
    - rewrite IHa by exact He; reflexivity.
    - rewrite IHa by exact He; reflexivity.
    - rewrite IHa by exact He; reflexivity.
  Qed.

  Lemma eval_kw_ok kw env e : (forall s, In s (occs e) -> dget kw (sname s) = Some (env s)) ->
    eval_kw A kw e = Ok (eval A env e).
  Proof.
    induction e as [z|s|a IHa b IHb|a IHa b IHb|a IHa n|a IHa|f a IHa]; simpl; intros He; auto.
    - rewrite He by auto. reflexivity.
    - rewrite IHa, IHb by (intros; apply He, in_or_app; auto). reflexivity.
    - rewrite IHa, IHb by (intros; apply He, in_or_app; auto). reflexivity.
    - rewrite IHa by exact He; reflexivity.
    - rewrite IHa by exact He; reflexivity.
    - rewrite IHa by exact He; reflexivity.
  Qed.

  Lemma in_free_symbols e s : In s (free_symbols e) <-> exists t, In t (occs e) /\ s = free_of t.
  Proof.
    unfold free_symbols. rewrite in_dedup, in_map_iff. split; intros (t & H1 & H2); exists t; auto.
  Qed.
  Lemma in_deriv_atoms e s : In s (deriv_atoms e) <-> In s (occs e) /\ is_der s = true.
  Proof. unfold deriv_atoms. rewrite in_dedup, filter_In. reflexivity. Qed.

  Lemma in_ord ord l (s : sym) : set_order ord -> In s (ord l) <-> In s l.
  Proof. intros Ho. split; apply Permutation_in; [apply Ho|symmetry; apply Ho]. Qed.

  Lemma in_expr_deps ord e s : set_order ord -> In s (expr_deps ord e) <-> mentions e s.
  Proof.
    intros Ho. unfold expr_deps, seperate_symbols, mentions.
    rewrite in_app_iff, !in_sort_by, in_app_iff, !filter_In, !in_ord by exact Ho.
    rewrite in_free_symbols, in_deriv_atoms. split.
    - intros [[[(t & Ht & ->) Hp]|[Ht Hd]]|[(t & Ht & ->) Hp]]; auto.
      + destruct t as [n|n|y ps]; simpl in *; auto. right; eauto.
      + destruct t as [n|n|y ps]; simpl in *; auto. right; eauto.
    - intros [Ht|(y & ps & Ht & ->)].
      + destruct s as [n|n|y ps].
        * left; left; split; [exists (SVar n); auto|reflexivity].
        * right; split; [exists (SPar n); auto|reflexivity].
        * left; right; auto.
      + left; left; split; [exists (SDer y ps); auto|reflexivity].
  Qed.

  Lemma NoDup_expr_deps ord e : set_order ord -> NoDup (expr_deps ord e).
  Proof.
    intros Ho. unfold expr_deps, seperate_symbols.
    assert (Hf : NoDup (ord (free_symbols e))).
    { eapply Permutation_NoDup; [symmetry; apply Ho|]. apply NoDup_dedup. }
    assert (Hd : NoDup (ord (deriv_atoms e))).
    { eapply Permutation_NoDup; [symmetry; apply Ho|]. apply NoDup_dedup. }
    apply NoDup_app_disj.
    - apply NoDup_sort_by. apply NoDup_app_disj; [apply NoDup_filter; exact Hf|exact Hd|].
      intros x Hx Hy. apply filter_In in Hx as [Hx _]. rewrite in_ord in Hx, Hy by exact Ho.
      apply in_free_symbols in Hx as (t & _ & ->). apply in_deriv_atoms in Hy as [_ Hy].
      destruct t; discriminate.
    - apply NoDup_sort_by, NoDup_filter; exact Hf.
    - intros x Hx Hy. rewrite in_sort_by in Hx, Hy. apply filter_In in Hy as [_ Hy].
      apply in_app_iff in Hx as [Hx|Hx].
      + apply filter_In in Hx as [_ Hx]. rewrite Hy in Hx; discriminate.
      + rewrite in_ord in Hx by exact Ho. apply in_deriv_atoms in Hx as [_ Hx]. destruct x; discriminate.
  Qed.

  Lemma occs_mentions e s : In s (occs e) -> mentions e s.
  Proof. left; assumption. Qed.

  (** [seperate_symbols] does not depend on the iteration order of sets. *)
  Lemma filter_perm {B} (f : B -> bool) l l' : Permutation l l' -> Permutation (filter f l) (filter f l').
  Proof.
    induction 1; simpl; auto.
    - destruct (f x); [constructor|]; assumption.
    - destruct (f x), (f y); try (apply perm_swap); reflexivity.
    - etransitivity; eassumption.
  Qed.
  Lemma seperate_symbols_ord ord1 ord2 e : set_order ord1 -> set_order ord2 ->
    (forall s t, mentions e s -> mentions e t -> sname s = sname t -> s = t) ->
    seperate_symbols ord1 e = seperate_symbols ord2 e.
  Proof.
    intros H1 H2 Hinj. unfold seperate_symbols.
    assert (Hp : Permutation (ord1 (free_symbols e)) (ord2 (free_symbols e))) by (etransitivity; [apply H1|symmetry; apply H2]).
    assert (Hq : Permutation (ord1 (deriv_atoms e)) (ord2 (deriv_atoms e))) by (etransitivity; [apply H1|symmetry; apply H2]).
    f_equal.
    - apply sort_by_perm_eq; [|apply Permutation_app; [apply filter_perm; exact Hp|exact Hq]].
      intros s t Hs Ht. apply Hinj.
      + apply (in_expr_deps ord1); [exact H1|]. unfold expr_deps, seperate_symbols. apply in_or_app; left.
        apply in_sort_by; exact Hs.
      + apply (in_expr_deps ord1); [exact H1|]. unfold expr_deps, seperate_symbols. apply in_or_app; left.
        apply in_sort_by; exact Ht.
    - apply sort_by_perm_eq; [|apply filter_perm; exact Hp].
      intros s t Hs Ht. apply Hinj.
      + apply (in_expr_deps ord1); [exact H1|]. unfold expr_deps, seperate_symbols. apply in_or_app; right.
        apply in_sort_by; exact Hs.
      + apply (in_expr_deps ord1); [exact H1|]. unfold expr_deps, seperate_symbols. apply in_or_app; right.
        apply in_sort_by; exact Ht.
  Qed.
  Lemma expr_deps_ord ord1 ord2 e : set_order ord1 -> set_order ord2 ->
    (forall s t, mentions e s -> mentions e t -> sname s = sname t -> s = t) ->
    expr_deps ord1 e = expr_deps ord2 e.
  Proof.
    intros H1 H2 Hinj. unfold expr_deps. rewrite (seperate_symbols_ord ord1 ord2) by assumption. reflexivity.
  Qed.
End ExprFacts.

(** ** Evaluation order *)
Section Order.
  Context {B : Type} `{EqDec B}.

  Lemma flat_map_perm (f : list B -> list B) layers :
    (forall l, Permutation (f l) l) -> Permutation (flat_map f layers) (concat layers).
  Proof.
    intros Hf. induction layers as [|l layers IH]; simpl; [constructor|]. rewrite Hf, IH. reflexivity.
  Qed.

  Lemma app_split_notin {C} (l1 l2 pre post : list C) x :
    l1 ++ l2 = pre ++ x :: post -> ~ In x l1 -> exists pre', pre = l1 ++ pre' /\ l2 = pre' ++ x :: post.
  Proof.
    revert pre; induction l1 as [|a l1 IH]; simpl; intros pre He Hn; [exists pre; auto|].
    destruct pre as [|b pre]; simpl in He; inv He; [tauto|].
    destruct (IH pre) as (pre' & -> & ->); auto. exists pre'; auto.
  Qed.

  Lemma layers_before (f : list B -> list B) layers :
    (forall l, Permutation (f l) l) -> NoDup (concat layers) ->
    forall pre x post i j Li Lj y, flat_map f layers = pre ++ x :: post ->
      nth_error layers i = Some Li -> In x Li -> nth_error layers j = Some Lj -> In y Lj -> j < i -> In y pre.
  Proof.
    intros Hf. induction layers as [|L layers IH]; intros Hnd pre x post i j Li Lj y He Hi Hx Hj Hy Hlt;
      [destruct i; discriminate|].
    destruct i as [|i]; [lia|]. simpl in *.
    assert (HxL : ~ In x (f L)).
    { intros HxL. apply (Permutation_in _ (Hf L)) in HxL.
      assert (Hxc : In x (concat layers)) by (apply in_concat; exists Li; split; [eapply nth_error_In; exact Hi|exact Hx]).
      clear -Hnd HxL Hxc. induction L as [|a L IHL]; [contradiction|]. simpl in Hnd; inv Hnd.
      destruct HxL as [->|HxL]; [apply H1, in_or_app; auto|auto]. }
    destruct (app_split_notin _ _ _ _ _ He HxL) as (pre' & -> & He').
    apply in_or_app. destruct j as [|j]; simpl in Hj.
    - inv Hj. left. eapply Permutation_in; [symmetry; apply Hf|exact Hy].
    - right. assert (Hnd' : NoDup (concat layers)).
      { clear -Hnd. induction L; simpl in Hnd; [exact Hnd|]. inv Hnd; auto. }
      eapply (IH Hnd' pre' x post i j); eauto. lia.
  Qed.
End Order.

(** A list of symbols in which everything comes after what it depends on. *)
Definition well_ordered (edge : sym -> sym -> Prop) (l : list sym) : Prop :=
  forall pre x post, l = pre ++ x :: post -> forall y, edge x y -> In y pre.

Section ModelFacts.
  Context {V : Type} (A : alg V).
  Notation model := (model (V:=V)).
  Notation comp := (comp (V:=V)).

  Lemma der_isort_perm l : Permutation (isort der_key_leb l) l.
  Proof. symmetry; apply isort_perm. Qed.

  Lemma ordered_symbols_ok ord m syms : set_order ord -> NoDup (dkeys (m_conn m)) ->
    ordered_symbols (V:=V) ord m = Ok syms ->
    NoDup syms /\ (forall s, In s syms <-> node (m_conn m) s) /\ well_ordered (proper_edge (m_conn m)) syms.
  Proof.
    intros Ho Hnd Hs. unfold ordered_symbols in Hs. apply bind_Ok in Hs as (layers & Hl & Hq). inv Hq.
    pose proof (toposort_ok _ _ Hnd Hl) as (Hndc & Hnode & Hlay & _).
    set (f := fun l => isort der_key_leb (ord l)).
    assert (Hf : forall l, Permutation (f l) l).
    { intros l. unfold f. rewrite der_isort_perm. apply Ho. }
    repeat split.
    - eapply Permutation_NoDup; [symmetry; apply flat_map_perm; exact Hf|exact Hndc].
    - intros Hx. apply Hnode. eapply Permutation_in; [apply flat_map_perm; exact Hf|exact Hx].
    - intros Hx. apply Hnode in Hx. eapply Permutation_in; [symmetry; apply flat_map_perm; exact Hf|exact Hx].
    - intros pre x post He y Hxy.
      assert (Hx : In x (concat layers)).
      { eapply Permutation_in; [apply (flat_map_perm f); exact Hf|]. rewrite He. apply in_or_app; right; left; reflexivity. }
      apply in_concat in Hx as (L & HL & Hx). apply In_nth_error in HL as (i & Hi).
      destruct (Hlay i L x y Hi Hx Hxy) as (j & L' & Hj & HL' & Hy).
      eapply (layers_before f layers Hf Hndc pre x post i j); eauto.
  Qed.

  (** *** the evaluation loop *)
  Definition comp_fun (m : model) (s : sym) (c : comp) : dict string V -> res V :=
    snd (numerical_component A m (s, c)).

  Definition solves_m (m : model) (val : sym -> V) : Prop :=
    forall s c deps kw, dget (m_dict m) s = Some c -> dget (m_conn m) s = Some deps ->
      Permutation kw (map (fun d => (sname d, val d)) deps) -> comp_fun m s c kw = Ok (val s).

  Record well_formed (m : model) : Prop := {
    wf_dict : NoDup (dkeys (m_dict m));
    wf_conn : NoDup (dkeys (m_conn m));
    wf_keys : forall s, In s (dkeys (m_conn m)) <-> In s (dkeys (m_dict m));
    wf_deps : forall s deps, In (s, deps) (m_conn m) -> NoDup deps;
    wf_noself : forall s deps, In (s, deps) (m_conn m) -> ~ In s deps;
    wf_names : forall s t, node (m_conn m) s -> node (m_conn m) t -> sname s = sname t -> s = t
  }.

  Definition kw_inv (m : model) (val : sym -> V) (done : list sym) (kw : dict string V) : Prop :=
    forall s, node (m_conn m) s ->
      ((~ In s (dkeys (m_dict m)) \/ In s done) -> dget kw (sname s) = Some (val s)) /\
      (In s (dkeys (m_dict m)) /\ ~ In s done -> dget kw (sname s) = None).

  Lemma dget_numerical m s : dget (map (numerical_component A m) (m_dict m)) s =
    option_map (comp_fun m s) (dget (m_dict m) s).
  Proof.
    rewrite <- (dget_mapv (comp_fun m)). reflexivity.
  Qed.

  Lemma eval_step_ok ord m val done kw s : set_order ord -> well_formed m -> solves_m m val ->
    node (m_conn m) s -> ~ In s done -> (forall y, proper_edge (m_conn m) s y -> In y done) ->
    kw_inv m val done kw ->
    exists kw', eval_step ord m (map (numerical_component A m) (m_dict m)) kw s = Ok kw' /\ kw_inv m val (done ++ [s]) kw'.
  Proof.
    intros Ho Hwf Hsol Hn Hnd Hbefore Hinv. unfold eval_step.
    destruct (in_dec eq_dec s (dkeys (m_dict m))) as [Hk|Hk].
    - (* a component *)
      destruct (Hinv s Hn) as [_ Hnone]. specialize (Hnone (conj Hk Hnd)).
      unfold dmem. rewrite Hnone.
      assert (Hkc : In s (dkeys (m_conn m))) by (apply (wf_keys m Hwf); exact Hk).
      apply dget_keys in Hkc. destruct (dget (m_conn m) s) as [deps|] eqn:Hdeps; [clear Hkc|congruence].
      apply dget_keys in Hk. destruct (dget (m_dict m) s) as [c|] eqn:Hc; [|congruence].
      assert (Hin : In (s, deps) (m_conn m)) by (apply dget_In; exact Hdeps).
      unfold dlook at 1. rewrite Hdeps. cbn [of_opt bind].
      assert (Hall : forall d, In d deps -> dget kw (sname d) = Some (val d)).
      { intros d Hd. assert (Hed : dep_edge (m_conn m) s d) by (exists deps; auto).
        assert (Hnode : node (m_conn m) d) by (right; eauto).
        apply (Hinv d Hnode). right. apply Hbefore. split; [exact Hed|].
        intros ->. apply (wf_noself m Hwf s deps Hin); exact Hd. }
      rewrite (mapM_map _ (fun d => (sname d, val d))).
      2:{ intros d Hd. apply in_ord in Hd; [|exact Ho]. unfold dlook. rewrite Hall by exact Hd. reflexivity. }
      cbn [bind]. unfold dlook. rewrite dget_numerical, Hc. cbn [option_map of_opt bind].
      assert (Hnames : NoDup (map sname (ord deps))).
      { assert (Hndd : NoDup (ord deps)) by (eapply Permutation_NoDup; [symmetry; apply Ho|apply (wf_deps m Hwf s); exact Hin]).
        assert (Hsub : forall d, In d (ord deps) -> node (m_conn m) d).
        { intros d Hd. apply in_ord in Hd; [|exact Ho]. right. exists s, deps; auto. }
        clear -Hndd Hsub Hwf. induction Hndd as [|d l Hd Hl IH]; simpl; constructor.
        - intros Hi. apply in_map_iff in Hi as (d' & He & Hd'). apply Hd.
          rewrite <- (wf_names m Hwf d' d); auto; apply Hsub; simpl; auto.
        - apply IH. intros; apply Hsub; right; assumption. }
      rewrite dict_of_nodup by (rewrite map_map; exact Hnames).
      rewrite (Hsol s c deps) by (auto; apply Permutation_map, Ho).
      cbn [bind]. eexists; split; [reflexivity|].
      intros t Ht. rewrite dget_dset. destruct (eq_dec (sname t) (sname s)) as [He|He].
      + assert (t = s) by (apply (wf_names m Hwf); auto). subst t. split; [reflexivity|].
        intros [_ Hn2]. exfalso. apply Hn2, in_or_app; right; left; reflexivity.
      + destruct (Hinv t Ht) as [H1 H2]. split.
        * intros [Hx|Hx]; [auto|]. apply in_app_iff in Hx as [Hx|[Hx|[]]]; [auto|congruence].
        * intros [Hx Hy]. apply H2. split; [exact Hx|]. intros Hz; apply Hy, in_or_app; auto.
    - (* an input *)
      destruct (Hinv s Hn) as [Hsome _]. specialize (Hsome (or_introl Hk)).
      unfold dmem. rewrite Hsome. exists kw; split; [reflexivity|].
      intros t Ht. destruct (Hinv t Ht) as [H1 H2]. split.
      + intros [Hx|Hx]; [auto|]. apply in_app_iff in Hx as [Hx|[Hx|[]]]; [auto|subst; auto].
      + intros [Hx Hy]. apply H2. split; [exact Hx|]. intros Hz; apply Hy, in_or_app; auto.
  Qed.

  Lemma eval_loop_ok ord m val : set_order ord -> well_formed m -> solves_m m val ->
    forall syms done kw, NoDup (done ++ syms) -> (forall s, In s syms -> node (m_conn m) s) ->
      well_ordered (proper_edge (m_conn m)) (done ++ syms) -> kw_inv m val done kw ->
      exists kw', foldM (eval_step ord m (map (numerical_component A m) (m_dict m))) kw syms = Ok kw' /\
                  kw_inv m val (done ++ syms) kw'.
  Proof.
    intros Ho Hwf Hsol. induction syms as [|s syms IH]; intros done kw Hnd Hnode Hwo Hinv; simpl.
    - exists kw. rewrite app_nil_r. auto.
    - destruct (eval_step_ok ord m val done kw s) as (kw' & He & Hinv'); auto.
      + apply Hnode; left; reflexivity.
      + apply NoDup_remove_2 in Hnd. intros Hx; apply Hnd, in_or_app; auto.
      + intros y Hy. apply (Hwo done s syms eq_refl y Hy).
      + rewrite He. cbn [bind]. destruct (IH (done ++ [s]) kw') as (kw2 & H1 & H2).
        * rewrite <- app_assoc; exact Hnd.
        * intros t Ht; apply Hnode; right; exact Ht.
        * rewrite <- app_assoc; exact Hwo.
        * exact Hinv'.
        * exists kw2. rewrite <- app_assoc in H2. auto.
  Qed.

  Lemma eval_bound_ok ord m val kw0 syms : set_order ord -> well_formed m -> solves_m m val ->
    ordered_symbols ord m = Ok syms ->
    (forall s, node (m_conn m) s -> ~ In s (dkeys (m_dict m)) -> dget kw0 (sname s) = Some (val s)) ->
    (forall s, In s (dkeys (m_dict m)) -> dget kw0 (sname s) = None) ->
    eval_bound A ord m kw0 = Ok (map val (dkeys (m_dict m))).
  Proof.
    intros Ho Hwf Hsol Hsyms Hin Hkey. unfold eval_bound. rewrite Hsyms. cbn [bind].
    destruct (ordered_symbols_ok ord m syms Ho (wf_conn m Hwf) Hsyms) as (Hnd & Hnode & Hwo).
    destruct (eval_loop_ok ord m val Ho Hwf Hsol syms [] kw0) as (kw & He & Hinv); auto.
    - intros s; apply Hnode.
    - intros s Hs. split; [intros [Hx|[]]; auto|intros [Hx _]; auto].
    - rewrite He. cbn [bind]. apply mapM_map. intros s Hs.
      assert (Hn : node (m_conn m) s) by (left; apply (wf_keys m Hwf); exact Hs).
      unfold dlook. destruct (Hinv s Hn) as [H1 _]. rewrite H1; [reflexivity|]. right. simpl. apply Hnode; exact Hn.
  Qed.

  (** *** symbolic models *)
  Lemma sort_items_perm (items : dict sym comp) : Permutation items (sort_items items).
  Proof. apply sort_by_perm. Qed.
  Lemma dkeys_sort_items (items : dict sym comp) : dkeys (sort_items items) = sort_by sname (dkeys items).
  Proof.
    unfold sort_items, dkeys, sort_by. induction items as [|[k c] items IH]; simpl; [reflexivity|].
    rewrite <- IH. clear IH.
    generalize (isort (fun a b : sym * comp => strleb (sname (fst a)) (sname (fst b))) items); intros l.
    induction l as [|[k' c'] l IHl]; simpl; [reflexivity|].
    destruct (strleb (sname k) (sname k')); simpl; [reflexivity|]. rewrite IHl; reflexivity.
  Qed.

  Definition sym_conn (ord : list sym -> list sym) (d : dict sym comp) : dict sym (list sym) :=
    map (fun kc => (fst kc, match snd kc with CExpr e => expr_deps ord e | CFun _ _ => [] end)) d.

  Lemma connectivity_ok ord (d : dict sym comp) : symbolic d -> connectivity ord d = Ok (sym_conn ord d).
  Proof.
    intros Hs. unfold connectivity, sym_conn. apply mapM_map. intros [k c] Hin.
    destruct (Hs k c Hin) as (e & ->). reflexivity.
  Qed.
  Lemma connectivity_symbolic ord (d : dict sym comp) conn : connectivity ord d = Ok conn -> symbolic d.
  Proof.
    unfold connectivity. intros Hm. apply mapM_Ok in Hm. intros k c Hin.
    induction Hm as [|[k0 c0] y d conn' Hy Hm IH]; [contradiction|].
    destruct Hin as [He|Hin]; [|auto]. inv He. destruct c; [eauto|discriminate].
  Qed.
  Lemma dkeys_sym_conn ord d : dkeys (sym_conn ord d) = dkeys d.
  Proof. unfold dkeys, sym_conn. rewrite map_map. reflexivity. Qed.
  Lemma in_sym_conn ord d s deps : In (s, deps) (sym_conn ord d) ->
    exists c, In (s, c) d /\ deps = match c with CExpr e => expr_deps ord e | CFun _ _ => [] end.
  Proof.
    unfold sym_conn. intros Hin. apply in_map_iff in Hin as ([k c] & He & Hin). simpl in He. inv He. eauto.
  Qed.
  Lemma dep_edge_sym_conn ord d x y : set_order ord -> dep_edge (sym_conn ord d) x y <-> refers d x y.
  Proof.
    intros Ho. unfold dep_edge, refers. split.
    - intros (ds & Hin & Hy). apply in_sym_conn in Hin as (c & Hin & ->).
      destruct c as [e|]; [|contradiction]. exists e; split; [exact Hin|]. eapply in_expr_deps; eauto.
    - intros (e & Hin & Hm). exists (expr_deps ord e). split; [|apply in_expr_deps; assumption].
      unfold sym_conn. apply in_map_iff. exists (x, CExpr e); auto.
  Qed.
  Lemma node_sym_conn ord d s : set_order ord -> node (sym_conn ord d) s <-> symbol_of d s.
  Proof.
    intros Ho. unfold node, symbol_of. rewrite dkeys_sym_conn.
    split; (intros [Hx|(k & Hk)]; [left; exact Hx|right; exists k; eapply dep_edge_sym_conn; eauto]).
  Qed.

  Lemma in_perm_iff {B} (l l' : list B) x : Permutation l l' -> In x l <-> In x l'.
  Proof. intros Hp; split; apply Permutation_in; [exact Hp|symmetry; exact Hp]. Qed.
  Lemma refers_perm (d d' : dict sym comp) : Permutation d d' -> forall x y, refers d x y <-> refers d' x y.
  Proof.
    intros Hp x y. unfold refers. split; intros (e & Hin & Hm); exists e; split; auto.
    - eapply Permutation_in; eauto.
    - eapply Permutation_in; [symmetry|]; eauto.
  Qed.
  Lemma dkeys_perm {X} (d d' : dict sym X) : Permutation d d' -> forall x, In x (dkeys d) <-> In x (dkeys d').
  Proof. intros Hp x. apply in_perm_iff. apply Permutation_map; exact Hp. Qed.
  Lemma symbol_of_perm (d d' : dict sym comp) : Permutation d d' -> forall x, symbol_of d x <-> symbol_of d' x.
  Proof.
    intros Hp x. unfold symbol_of. rewrite (dkeys_perm d d' Hp).
    split; (intros [Hx|(k & Hk)]; [left; exact Hx|right; exists k]).
    - apply (refers_perm d d' Hp); exact Hk.
    - apply (refers_perm d d' Hp); exact Hk.
  Qed.
  Lemma symbolic_perm (d d' : dict sym comp) : Permutation d d' -> symbolic d -> symbolic d'.
  Proof. intros Hp Hs k c Hin. apply (Hs k c). eapply Permutation_in; [symmetry; exact Hp|exact Hin]. Qed.

  (** What [classify] returns. *)
  Lemma classify_inv ord (d : dict sym comp) conn (m : model) : classify ord d conn = Ok m ->
    exists l0 mid top, toposort conn = Ok (l0 :: mid ++ [top]) /\
      m_dict m = d /\ m_conn m = conn /\
      m_indep m = filter (fun s => negb (is_par s) && negb (dmem d s)) (sort_by sname (ord l0)) /\
      m_params m = filter is_par (sort_by sname (ord l0)) /\
      m_dep m = sort_by sname (ord top) /\
      m_inter m = sort_by sname (flat_map ord mid) /\
      make_signature (m_indep m) (m_params m) = Ok (m_sig m) /\
      (forall s, In s (m_dep m) \/ In s (m_inter m) -> is_par s = false).
  Proof.
    unfold classify. intros Hc. apply bind_Ok in Hc as (layers & Hl & Hc).
    destruct layers as [|l0 rest]; [discriminate|].
    destruct (rev rest) as [|top mid] eqn:Hr; [discriminate|].
    assert (Hrest : rest = rev mid ++ [top]).
    { rewrite <- (rev_involutive rest), Hr. reflexivity. }
    apply bind_Ok in Hc as (sig & Hs & Hc). destruct (_ || _) eqn:Hp; [discriminate|]. inv Hc.
    exists l0, (rev mid), top. simpl. apply orb_false_iff in Hp as [Hp1 Hp2].
    repeat split; auto.
    intros s [Hx|Hx]; destruct (is_par s) eqn:He; auto.
    - rewrite <- Hp1. symmetry. apply existsb_exists; eauto.
    - rewrite <- Hp2. symmetry. apply existsb_exists; eauto.
  Qed.

  Lemma init_model_inv ord (items : dict sym comp) (m : model) : init_model ord items = Ok m ->
    symbolic items /\ m_dict m = sort_items items /\ m_conn m = sym_conn ord (sort_items items) /\
    classify ord (sort_items items) (sym_conn ord (sort_items items)) = Ok m.
  Proof.
    unfold init_model. intros Hi. apply bind_Ok in Hi as (conn & Hc & Hi).
    pose proof (connectivity_symbolic _ _ _ Hc) as Hs. rewrite connectivity_ok in Hc by exact Hs. inv Hc.
    split; [eapply symbolic_perm; [symmetry; apply sort_items_perm|exact Hs]|].
    pose proof (classify_inv _ _ _ _ Hi) as (l0 & mid & top & _ & H1 & H2 & _). auto.
  Qed.

  Lemma well_formed_sym ord (items : dict sym comp) (m : model) : set_order ord -> is_dict items -> distinct_names items ->
    no_self_reference items -> m_dict m = sort_items items -> m_conn m = sym_conn ord (sort_items items) ->
    well_formed m.
  Proof.
    intros Ho Hd Hn Hself H1 H2. assert (Hp := sort_items_perm items). constructor; rewrite ?H1, ?H2.
    - eapply Permutation_NoDup; [apply Permutation_map; exact Hp|exact Hd].
    - rewrite dkeys_sym_conn. eapply Permutation_NoDup; [apply Permutation_map; exact Hp|exact Hd].
    - intros s. rewrite dkeys_sym_conn. reflexivity.
    - intros s deps Hin. apply in_sym_conn in Hin as (c & _ & ->). destruct c; [apply NoDup_expr_deps; exact Ho|constructor].
    - intros s deps Hin Hs. apply (Hself s). apply (refers_perm _ _ Hp). apply (dep_edge_sym_conn ord); [exact Ho|].
      exists deps; auto.
    - intros s t Hs Ht. apply node_sym_conn in Hs; [|exact Ho]. apply node_sym_conn in Ht; [|exact Ho].
      apply Hn; eapply (symbol_of_perm _ _ Hp); assumption.
  Qed.

  Lemma comp_fun_expr m s e deps kw val : dget (m_conn m) s = Some deps ->
    (forall x y, In x deps -> In y deps -> sname x = sname y -> x = y) -> NoDup deps ->
    incl (occs e) deps ->
    Permutation kw (map (fun d => (sname d, val d)) deps) ->
    comp_fun m s (CExpr e) kw = Ok (eval A val e).
  Proof.
    intros Hdeps Hinj Hnd Hocc Hp. unfold comp_fun, numerical_component. simpl.
    unfold dlook. rewrite Hdeps. cbn [of_opt bind]. unfold sympy_to_py.
    assert (Hkeys : Permutation (dkeys kw) (map sname deps)).
    { apply (Permutation_map fst) in Hp. rewrite map_map in Hp. exact Hp. }
    assert (Hnames : NoDup (map sname deps)).
    { clear -Hinj Hnd. induction Hnd as [|d l Hd Hl IH]; simpl; constructor.
      - intros Hi. apply in_map_iff in Hi as (d' & He & Hd'). apply Hd. rewrite <- (Hinj d' d); simpl; auto.
      - apply IH. intros; apply Hinj; simpl; auto. }
    assert (Hget : forall d, In d deps -> dget kw (sname d) = Some (val d)).
    { intros d Hd. apply In_dget; [eapply Permutation_NoDup; [symmetry; exact Hkeys|exact Hnames]|].
      eapply Permutation_in; [symmetry; exact Hp|]. apply in_map_iff. exists d; auto. }
    replace (forallb _ _ && forallb _ _) with true.
    - apply eval_kw_ok. intros t Ht. apply Hget, Hocc; exact Ht.
    - symmetry. apply andb_true_iff. split; apply forallb_forall.
      + intros n Hn. apply in_map_iff in Hn as (d & <- & Hd). unfold dmem. rewrite Hget by exact Hd. reflexivity.
      + intros n Hn. apply inb_In. eapply Permutation_in; [exact Hkeys|exact Hn].
  Qed.

  Lemma solves_sym ord (items : dict sym comp) (m : model) inp val : set_order ord -> is_dict items -> distinct_names items ->
    no_self_reference items -> symbolic items ->
    m_dict m = sort_items items -> m_conn m = sym_conn ord (sort_items items) ->
    solution A items inp val -> solves_m m val.
  Proof.
    intros Ho Hd Hn Hself Hs H1 H2 [Heq _].
    pose proof (well_formed_sym ord items m Ho Hd Hn Hself H1 H2) as Hwf.
    intros s c deps kw Hc Hdeps Hp.
    assert (Hin : In (s, c) items).
    { eapply Permutation_in; [symmetry; apply sort_items_perm|]. rewrite <- H1. apply dget_In; exact Hc. }
    destruct (Hs s c Hin) as (e & ->). rewrite (Heq s e Hin).
    assert (Hde : In (s, deps) (m_conn m)) by (apply dget_In; exact Hdeps).
    assert (deps = expr_deps ord e).
    { rewrite H2 in Hde. apply in_sym_conn in Hde as (c' & Hin' & ->).
      assert (Hc' : dget (m_dict m) s = Some c') by (apply In_dget; [apply Hwf|rewrite H1; exact Hin']).
      rewrite Hc in Hc'. inv Hc'. reflexivity. }
    eapply comp_fun_expr; eauto.
    - intros x y Hx Hy. apply (wf_names m Hwf); right; exists s, deps; auto.
    - apply (wf_deps m Hwf s); exact Hde.
    - intros t Ht. subst deps. apply in_expr_deps; [exact Ho|left; exact Ht].
  Qed.

  (** *** existence and uniqueness of the solution *)
  Definition upd (env : sym -> V) (s : sym) (v : V) : sym -> V :=
    fun t => if eq_dec t s then v else env t.
  Definition build_step (d : dict sym comp) (env : sym -> V) (s : sym) : sym -> V :=
    match dget d s with Some (CExpr e) => upd env s (eval A env e) | _ => env end.

  Lemma build_ok (d : dict sym comp) (inp : sym -> V) : NoDup (dkeys d) ->
    forall pre, (forall k e, In k pre -> In (k, CExpr e) d -> forall s, In s (occs e) -> s <> k) ->
      well_ordered (fun x y => y <> x /\ refers d x y) pre -> NoDup pre ->
      let env := fold_left (build_step d) pre inp in
      (forall k e, In k pre -> In (k, CExpr e) d -> env k = eval A env e) /\
      (forall s, ~ In s (dkeys d) -> env s = inp s).
  Proof.
    intros Hd pre. induction pre as [|x pre IH] using rev_ind; intros Hself Hwo Hnd env; unfold env.
    - split; [intros k e []|reflexivity].
    - rewrite fold_left_app. simpl.
      destruct IH as [IH1 IH2].
      { intros k e Hk; apply Hself, in_or_app; auto. }
      { intros p y q Hq z Hz. apply (Hwo p y (q ++ [x])); [rewrite Hq, <- app_assoc; reflexivity|exact Hz]. }
      { apply NoDup_remove_1 in Hnd. rewrite app_nil_r in Hnd. exact Hnd. }
      set (env0 := fold_left (build_step d) pre inp) in *.
      assert (Hx : ~ In x pre). { apply NoDup_remove_2 in Hnd. rewrite app_nil_r in Hnd. exact Hnd. }
      assert (Hold : forall k e v, In k pre -> In (k, CExpr e) d -> eval A (upd env0 x v) e = eval A env0 e).
      { intros k e v Hk Hin. apply eval_ext. intros s Hs. unfold upd. destruct (eq_dec s x) as [->|]; [|reflexivity].
        exfalso. apply in_split in Hk as (p & q & Hpq).
        assert (Hy : In x p).
        { apply (Hwo p k (q ++ [x])); [rewrite Hpq, <- app_assoc; reflexivity|]. split.
          - apply (Hself k e); auto. apply in_or_app; left. rewrite Hpq. apply in_or_app; right; left; reflexivity.
          - exists e; split; [exact Hin|left; exact Hs]. }
        apply Hx. rewrite Hpq. apply in_or_app; left; exact Hy. }
      unfold build_step. destruct (dget d x) as [[e0|]|] eqn:Hg.
      + split.
        * intros k e Hk Hin. apply in_app_iff in Hk as [Hk|[<-|[]]].
          -- rewrite (Hold k e) by assumption. unfold upd. destruct (eq_dec k x) as [->|]; [contradiction|]. auto.
          -- apply (In_dget d x (CExpr e) Hd) in Hin as Hg'. rewrite Hg in Hg'. inv Hg'.
             unfold upd at 1. destruct (eq_dec x x); [|congruence]. symmetry. apply eval_ext.
             intros s Hs. unfold upd. destruct (eq_dec s x) as [->|]; [|reflexivity].
             exfalso. apply (Hself x e) with (s := x); auto. apply in_or_app; right; left; reflexivity.
        * intros s Hs. unfold upd. destruct (eq_dec s x) as [->|]; [|auto].
          exfalso. apply Hs. eapply dget_Some_key; exact Hg.
      + split; [|exact IH2]. intros k e Hk Hin. apply in_app_iff in Hk as [Hk|[<-|[]]]; [auto|].
        apply (In_dget d x (CExpr e) Hd) in Hin. congruence.
      + split; [|exact IH2]. intros k e Hk Hin. apply in_app_iff in Hk as [Hk|[<-|[]]]; [auto|].
        apply (In_dget d x (CExpr e) Hd) in Hin. congruence.
  Qed.

  Lemma solution_unique_on (d : dict sym comp) inp syms val val' : NoDup (dkeys d) -> symbolic d ->
    (forall k, ~ refers d k k) ->
    well_ordered (fun x y => y <> x /\ refers d x y) syms ->
    solution A d inp val -> solution A d inp val' -> forall s, In s syms -> val s = val' s.
  Proof.
    intros Hd Hsym Hself Hwo [H1 H2] [H1' H2'].
    induction syms as [|x syms IH] using rev_ind; intros s Hs; [contradiction|].
    assert (Hwo' : well_ordered (fun x y => y <> x /\ refers d x y) syms).
    { intros p y q Hq z Hz. apply (Hwo p y (q ++ [x])); [rewrite Hq, <- app_assoc; reflexivity|exact Hz]. }
    specialize (IH Hwo'). apply in_app_iff in Hs as [Hs|[<-|[]]]; [auto|].
    destruct (in_dec eq_dec x (dkeys d)) as [Hk|Hk].
    - apply in_map_iff in Hk as ([k c] & Hk & Hin). simpl in Hk; subst k.
      destruct (Hsym x c Hin) as (e & ->). rewrite (H1 x e Hin), (H1' x e Hin).
      apply eval_ext. intros s Hs. apply IH. apply (Hwo syms x [] eq_refl). split.
      + intros ->. apply (Hself x). exists e; split; [exact Hin|left; exact Hs].
      + exists e; split; [exact Hin|left; exact Hs].
    - rewrite H2, H2' by exact Hk. reflexivity.
  Qed.

  Lemma toposort_ordered ord (m : model) layers : toposort (m_conn m) = Ok layers ->
    exists syms, ordered_symbols (V:=V) ord m = Ok syms.
  Proof. intros Ht. unfold ordered_symbols. rewrite Ht. simpl. eauto. Qed.

  Lemma solution_exists ord (items : dict sym comp) (m : model) inp : set_order ord -> is_dict items -> no_self_reference items ->
    init_model ord items = Ok m ->
    exists val, solution A items inp val /\
      (forall val', solution A items inp val' -> forall s, In s (dkeys items) -> val' s = val s).
  Proof.
    intros Ho Hd Hself Hi. destruct (init_model_inv _ _ _ Hi) as (Hs & H1 & H2 & Hc).
    destruct (classify_inv _ _ _ _ Hc) as (l0 & mid & top & Ht & _).
    rewrite <- H2 in Ht. destruct (toposort_ordered ord m _ Ht) as (syms & Hsyms).
    assert (Hp := sort_items_perm items).
    assert (Hndc : NoDup (dkeys (m_conn m))).
    { rewrite H2, dkeys_sym_conn. eapply Permutation_NoDup; [apply Permutation_map; exact Hp|exact Hd]. }
    destruct (ordered_symbols_ok ord m syms Ho Hndc Hsyms) as (Hnd & Hnode & Hwo).
    assert (Hwo' : well_ordered (fun x y => y <> x /\ refers items x y) syms).
    { intros p x q Hq y [Hne Hr]. apply (Hwo p x q Hq y). split; [|exact Hne]. rewrite H2.
      apply dep_edge_sym_conn; [exact Ho|]. eapply refers_perm; [symmetry; exact Hp|exact Hr]. }
    assert (Hall : forall k, In k (dkeys items) -> In k syms).
    { intros k Hk. apply Hnode. left. rewrite H2, dkeys_sym_conn. apply (dkeys_perm _ _ Hp); exact Hk. }
    destruct (build_ok items inp Hd syms) as [Hb1 Hb2]; auto.
    { intros k e Hk Hin s Hso ->. apply (Hself k). exists e; split; [exact Hin|left; exact Hso]. }
    exists (fold_left (build_step items) syms inp).
    assert (Hsol : solution A items inp (fold_left (build_step items) syms inp)).
    { split; [|exact Hb2]. intros k e Hin. apply Hb1; [|exact Hin].
      apply Hall. change k with (fst (k, CExpr (V:=V) e)). apply in_map; exact Hin. }
    split; [exact Hsol|]. intros val' Hsol' k Hk.
    eapply (solution_unique_on items inp syms); eauto.
  Qed.
End ModelFacts.
