(** * PropLemmas: the lemmas the property files close with. *)
From Coq Require Import Relations Reals Lra.
From Verif Require Import PyBase PyFacts Toposort ToposortFacts LayerFacts Signature SignatureFacts Expr Model ModelSpec ModelFacts CallFacts InitFacts ConstraintFacts AsConstraint ModelMisc ExprR.
Local Open Scope nat_scope.

Section PropLemmas.
  Context {V : Type}.
  Notation model := (model (V:=V)).
  Notation comp := (comp (V:=V)).

  Lemma param_component_rejected ord (items : dict sym comp) p t : set_order ord -> is_dict items ->
    is_par p = true -> refers items p t -> t <> p -> forall m, init_model ord items <> Ok m.
  Proof.
    intros Ho Hd Hp Hr Hne m Hi.
    destruct (init_model_inv _ _ _ Hi) as (Hs & H1 & H2 & Hc).
    destruct (classify_inv _ _ _ _ Hc) as (l0 & mid & top & _ & _ & _ & _ & _ & _ & _ & _ & Hnp).
    rewrite (Hnp p (dep_or_inter ord items m Ho Hd Hi p t Hr Hne)) in Hp. discriminate.
  Qed.

  Lemma components_listed ord (items : dict sym comp) (m : model) :
    set_order ord -> is_dict items -> init_model ord items = Ok m ->
    (forall s t, refers items s t -> t <> s -> In s (m_dep m) \/ In s (m_inter m)) /\
    ((forall k s, refers items k s -> ~ In s (dkeys items)) -> forall s t, refers items s t -> In s (m_dep m)).
  Proof.
    intros Ho Hd Hi. split; [exact (dep_or_inter ord items m Ho Hd Hi)|].
    intros Hflat s t Hr.
    assert (Hne : t <> s) by (intros ->; apply (Hflat _ _ Hr); destruct Hr as (e & Hin & _); eapply in_key; eauto).
    destruct (layers_of_init ord items m Ho Hi) as (l0 & mid & top & Ht & _ & _ & Hdep & Hint).
    assert (Hcn : NoDup (dkeys (m_conn m))) by (apply (conn_nodup ord items m); auto).
    pose proof (toposort_depth _ _ Hcn Ht) as S.
    (* every symbol is in layer 0 or 1 *)
    assert (Hlay : forall i x, at_layer (l0 :: mid ++ [top]) i x -> i <= 1).
    { intros i x Hx. destruct i as [|[|i]]; [lia|lia|]. exfalso.
      destruct (ds_pred _ _ S (Datatypes.S i) x Hx) as (y & [He _] & Hy). apply (edge_items ord items m Ho Hi) in He.
      destruct (ds_pred _ _ S i y Hy) as (z & [He2 _] & _). apply (edge_items ord items m Ho Hi) in He2.
      apply (Hflat x y He). destruct He2 as (e & Hin & _). eapply in_key; eauto. }
    assert (Hmid : mid = []).
    { pose proof (toposort_ok _ _ Hcn Ht) as (_ & _ & _ & Hnonempty).
      destruct mid as [|L mid]; [reflexivity|]. exfalso.
      destruct top as [|x top]; [apply (Hnonempty []); [right; apply in_or_app; right; left; reflexivity|reflexivity]|].
      specialize (Hlay (Datatypes.S (length (L :: mid))) x). simpl in Hlay.
      assert (at_layer (l0 :: L :: mid ++ [x :: top]) (Datatypes.S (Datatypes.S (length mid))) x); [|apply Hlay in H; lia].
      exists (x :: top). split; [|left; reflexivity]. simpl. rewrite nth_error_app2 by lia. rewrite Nat.sub_diag. reflexivity. }
    destruct (dep_or_inter ord items m Ho Hd Hi s t Hr Hne) as [|Hin]; [assumption|].
    apply Hint in Hin. rewrite Hmid in Hin. contradiction.
  Qed.

  (** the layer of a symbol is the length of its longest chain of references *)
  Lemma classified_by_depth ord (items : dict sym comp) (m : model) :
    set_order ord -> is_dict items -> init_model ord items = Ok m ->
    (forall s, In s (m_dep m) <-> exists n, 0 < n /\ refers_down items s n /\ forall t k, refers_down items t k -> k <= n) /\
    (forall s, In s (m_inter m) <-> (exists t, refers items s t /\ t <> s) /\ ~ In s (m_dep m)).
  Proof.
    intros Ho Hd Hi.
    destruct (layers_of_init ord items m Ho Hi) as (l0 & mid & top & Ht & _ & _ & Hdep & Hint).
    assert (Hcn : NoDup (dkeys (m_conn m))) by (apply (conn_nodup ord items m); auto).
    pose proof (toposort_depth _ _ Hcn Ht) as S.
    pose proof (toposort_ok _ _ Hcn Ht) as (_ & _ & _ & Hne).
    set (layers := l0 :: mid ++ [top]) in *.
    assert (Hedge : forall x y, proper_edge (m_conn m) x y <-> refers items x y /\ y <> x).
    { intros x y. unfold proper_edge. rewrite (edge_items ord items m Ho Hi). tauto. }
    assert (Hup : forall x n, refers_down items x n -> forall i, at_layer layers i x -> n <= i).
    { induction 1 as [s|s t n Hr Hn Hc IH]; intros i Hx; [lia|].
      destruct (ds_below _ _ S i s t Hx) as (j & Hj & Hy); [apply Hedge; auto|]. specialize (IH j Hy). lia. }
    assert (Hdown : forall i x, at_layer layers i x -> refers_down items x i).
    { induction i as [|i IH]; intros x Hx; [constructor|].
      destruct (ds_pred _ _ S i x Hx) as (y & He & Hy). apply Hedge in He as [Hr Hn]. apply (down_S _ x y i Hr Hn). auto. }
    assert (Hlen : List.length layers = Datatypes.S (Datatypes.S (List.length mid))) by (unfold layers; simpl; rewrite app_length; simpl; lia).
    assert (Htop : forall x, In x top <-> at_layer layers (Datatypes.S (List.length mid)) x).
    { intros x. assert (Hn : nth_error layers (Datatypes.S (List.length mid)) = Some top).
      { unfold layers; simpl. rewrite nth_error_app2 by lia. rewrite Nat.sub_diag. reflexivity. }
      split; [intros Hx; exists top; auto|intros (L & HL & Hx)]. rewrite Hn in HL. inv HL. exact Hx. }
    assert (Hin : forall x n, 0 < n -> refers_down items x n -> exists i, 0 < i /\ at_layer layers i x).
    { intros x n Hn Hc. inv Hc; [lia|]. assert (Hnode : node (m_conn m) x).
      { left. assert (He : proper_edge (m_conn m) x t) by (apply Hedge; auto). destruct He as [(ds & Hi1 & _) _]. change x with (fst (x, ds)). apply in_map; exact Hi1. }
      apply (ds_node _ _ S) in Hnode as (i & Hx). exists i. split; [|exact Hx]. pose proof (Hup x (Datatypes.S n0) (down_S _ x t n0 H H0 H1) i Hx). lia. }
    assert (Hbound : forall t k, refers_down items t k -> k <= Datatypes.S (List.length mid)).
    { intros t k Hc. destruct k as [|k]; [lia|]. destruct (Hin t (Datatypes.S k) ltac:(lia) Hc) as (i & _ & Hx).
      pose proof (Hup t _ Hc i Hx). destruct Hx as (L & HL & _). assert (i < List.length layers) by (apply nth_error_Some; rewrite HL; discriminate). lia. }
    assert (Hdeps : forall s, In s (m_dep m) <-> exists n, 0 < n /\ refers_down items s n /\ forall t k, refers_down items t k -> k <= n).
    { intros s. rewrite (Hdep s), Htop. split.
      - intros Hx. exists (Datatypes.S (List.length mid)). split; [lia|]. split; [apply Hdown; exact Hx|exact Hbound].
      - intros (n & Hn & Hc & Hmax). destruct (Hin s n Hn Hc) as (i & Hi0 & Hx).
        assert (n <= Datatypes.S (List.length mid)) by (apply (Hbound s); exact Hc).
        assert (Hne' : top <> []) by (apply Hne; unfold layers; right; apply in_or_app; right; left; reflexivity).
        destruct top as [|z top'] eqn:Htp; [congruence|].
        assert (Hz : at_layer layers (Datatypes.S (List.length mid)) z) by (apply Htop; left; reflexivity).
        pose proof (Hmax z _ (Hdown _ _ Hz)). pose proof (Hup s n Hc i Hx). destruct Hx as (L & HL & HxL).
        assert (i < List.length layers) by (apply nth_error_Some; rewrite HL; discriminate).
        replace (Datatypes.S (List.length mid)) with i by lia. exists L; auto. }
    split; [exact Hdeps|].
    intros s. rewrite (Hint s), (Hdep s), Htop. split.
    - intros Hm. apply at_layer_concat in Hm as (i & L & HL & Hx).
      assert (Hlt : i < List.length mid) by (apply nth_error_Some; rewrite HL; discriminate).
      assert (Hx' : at_layer layers (Datatypes.S i) s).
      { exists L. split; [|exact Hx]. unfold layers. simpl. rewrite nth_error_app1 by exact Hlt. exact HL. }
      split.
      + destruct (ds_pred _ _ S i s Hx') as (y & He & _). exists y. apply Hedge; exact He.
      + intros Hx2. pose proof (at_layer_unique _ _ _ _ (ds_nodup _ _ S) Hx' Hx2). lia.
    - intros ((t & Hr & Hn) & Hno). destruct (Hin s 1 ltac:(lia) (down_S _ s t 0 Hr Hn (down_0 _ t))) as (i & Hi0 & Hx).
      destruct i as [|i]; [lia|]. apply at_layer_concat. exists i. destruct Hx as (L & HL & HxL). exists L. split; [|exact HxL].
      unfold layers in HL. simpl in HL. destruct (Nat.lt_ge_cases i (List.length mid)) as [Hlt|Hge].
      + rewrite nth_error_app1 in HL by exact Hlt. exact HL.
      + exfalso. rewrite nth_error_app2 in HL by exact Hge. destruct (i - List.length mid) as [|d] eqn:E; [|destruct d; discriminate].
        inv HL. apply Hno. apply Htop. exact HxL.
  Qed.

  Lemma init_signature ord (items : dict sym comp) (m : model) : init_model ord items = Ok m ->
    m_sig m = required (map sname (m_indep m ++ m_params m)).
  Proof.
    intros Hi. destruct (init_model_inv _ _ _ Hi) as (_ & _ & _ & Hc).
    destruct (classify_inv _ _ _ _ Hc) as (l0 & mid & top & _ & _ & _ & _ & _ & _ & _ & Hsig & _).
    exact (proj1 (make_signature_ok _ _ _ Hsig)).
  Qed.

  Context (A : alg V).
  Lemma call_output_wellformed ord1 ord2 (items : dict sym comp) (m : model) args kw o :
    is_dict items -> distinct_names items -> init_model ord1 items = Ok m -> call A ord2 m args kw = Ok o ->
    NoDup (map sname (mo_vars o)) /\ length (mo_vars o) = length (mo_out o) /\ mo_vars o = dkeys (m_dict m).
  Proof.
    intros Hd Hn Hi Hc. destruct (init_model_inv _ _ _ Hi) as (_ & H1 & _).
    unfold call in Hc. apply bind_Ok in Hc as (vals & Hv & Hq). inv Hq. cbn [mo_vars mo_out].
    unfold eval_components in Hv. apply bind_Ok in Hv as (kw0 & _ & Hv).
    unfold eval_bound in Hv. apply bind_Ok in Hv as (syms & _ & Hv). apply bind_Ok in Hv as (kw1 & _ & Hv).
    apply mapM_Ok in Hv. split; [|split; [|reflexivity]].
    - rewrite H1, dkeys_sort_items. apply NoDup_map_names.
      + apply NoDup_sort_by. exact Hd.
      + intros x y Hx Hy. apply in_sort_by in Hx. apply in_sort_by in Hy. apply Hn; left; assumption.
    - apply Forall2_len in Hv. exact Hv.
  Qed.

  Lemma negation_call mulm1 ord1 ord2 ord3 (items : dict sym comp) (m : model) inp val args kw :
    set_order ord1 -> set_order ord2 -> set_order ord3 -> is_dict items -> distinct_names items -> no_self_reference items ->
    (forall k, In k (dkeys items) -> is_par k = false) ->
    (forall e s, mentions (mulm1 e) s <-> mentions e s) ->
    (forall e env, eval A env (mulm1 e) = a_mul A (eval A env e) (a_num A (-1))) ->
    init_model ord1 items = Ok m -> solution A items inp val ->
    exists m', neg_model mulm1 ord2 m = Ok m' /\
      dkeys (m_dict m') = dkeys (m_dict m) /\ m_indep m' = m_indep m /\ m_params m' = m_params m /\
      m_dep m' = m_dep m /\ m_inter m' = m_inter m /\ m_sig m' = m_sig m /\
      (supplies (named inp (m_indep m ++ m_params m)) args kw ->
       call A ord3 m args kw = Ok {| mo_vars := dkeys (m_dict m); mo_out := map val (dkeys (m_dict m)) |} /\
       call A ord3 m' args kw = Ok {| mo_vars := dkeys (m_dict m);
         mo_out := map (fun k => if inb k (m_dep m) then a_mul A (val k) (a_num A (-1)) else val k) (dkeys (m_dict m)) |}).
  Proof.
    intros Ho1 Ho2 Ho3 Hd Hn Hself Hpar Hmm Hmul Hi Hsol.
    destruct (neg_model_ok mulm1 ord1 ord2 items m Ho1 Ho2 Hd Hn Hmm Hi) as (m' & Hneg & Hm' & E1 & E2 & E3 & E4 & E5 & E6 & E7).
    exists m'. split; [exact Hneg|].
    assert (Hk : dkeys (m_dict m') = dkeys (m_dict m)) by (rewrite E1; unfold dkeys; rewrite map_map; reflexivity).
    do 6 (split; [assumption|]). intros Hsup.
    destruct (init_model_inv _ _ _ Hi) as (Hs & H1 & _).
    assert (Hkeys : sort_by sname (dkeys items) = dkeys (m_dict m)) by (rewrite H1, dkeys_sort_items; reflexivity).
    split.
    - rewrite (call_symbolic A ord1 ord3 items m inp val args kw); auto. rewrite Hkeys. reflexivity.
    - set (items' := map (fun kc => (fst kc, neg_at mulm1 (m_dep m) (fst kc) (snd kc))) items) in *.
      assert (Hkk : dkeys items' = dkeys items) by (unfold items', dkeys; rewrite map_map; reflexivity).
      assert (Href : forall k s, refers items' k s -> refers items k s).
      { intros k s (e & Hin & Hm). apply in_map_iff in Hin as ([k0 c0] & He & Hin). simpl in He. inv He.
        destruct (Hs k c0 Hin) as (e0 & ->). unfold neg_at in H2. destruct (inb k (m_dep m)); inv H2.
        - exists e0; split; [exact Hin|]. apply Hmm; exact Hm.
        - exists e; auto. }
      assert (Hsy : forall s, symbol_of items' s -> symbol_of items s).
      { intros s [Hk'|(k & Hr)]; [left; rewrite <- Hkk; exact Hk'|right; exists k; auto]. }
      rewrite (call_symbolic A ord2 ord3 items' m' inp (fun s => if inb s (m_dep m) then a_mul A (val s) (a_num A (-1)) else val s) args kw); auto.
      + rewrite Hkk, Hkeys. reflexivity.
      + unfold is_dict. rewrite Hkk. exact Hd.
      + intros s t Hs1 Ht1. apply Hn; auto.
      + intros k Hr. apply (Hself k); auto.
      + intros k Hk'. rewrite Hkk in Hk'. auto.
      + apply (neg_solution A mulm1 ord1 items m inp val); auto.
      + rewrite E3, E4. exact Hsup.
  Qed.

  Lemma constraint_parameters sub mulm1 ord ordd (ditems : dict sym comp) (dm : model) w r l h :
    set_order ord -> set_order ordd -> is_dict ditems -> init_model ordd ditems = Ok dm ->
    no_self_reference ditems -> (forall k, In k (dkeys ditems) -> is_par k = false) ->
    distinct_names ([(w, CExpr (sub l h))] ++ ditems) -> is_par w = false -> ~ symbol_of ditems w -> ~ mentions (sub l h) w ->
    (forall e s, mentions (mulm1 e) s <-> mentions e s) ->
    (forall cm ty, as_constraint sub mulm1 w ord (CRel r l h) dm = Ok (cm, ty) ->
       m_params cm = m_params dm /\
       forall p, mentions (sub l h) p -> is_par p = true -> In p (m_params dm)) /\
    ((exists s, mentions (sub l h) s) -> (r = REq \/ r = RGe \/ r = RLe) ->
     (exists p, mentions (sub l h) p /\ is_par p = true /\ ~ In p (m_params dm)) ->
     as_constraint sub mulm1 w ord (CRel r l h) dm = Raise ModelError).
  Proof.
    intros H1 H2 H3 H4 H5 H6 H7 H8 H9 H10 H11. split.
    - intros cm ty Hc. destruct (as_constraint_ok A sub mulm1 ord ordd ditems dm w r l h H1 H2 H3 H4 H5 H6 H7 H8 H9 H10 H11 cm ty Hc)
        as (_ & _ & Hp & _ & Hq & _). split; assumption.
    - exact (as_constraint_rejects A sub mulm1 ord ordd ditems dm w r l h H1 H2 H3 H4 H5 H6 H7 H8 H9 H10 H11).
  Qed.
End PropLemmas.

Lemma constraint_meaning sub mulm1 ord ordd (ditems : dict sym (comp (V:=R))) dm w r l h cm ty :
    set_order ord -> set_order ordd -> is_dict ditems -> init_model ordd ditems = Ok dm ->
    no_self_reference ditems -> (forall k, In k (dkeys ditems) -> is_par k = false) ->
    distinct_names ((w, CExpr (sub l h)) :: ditems) -> is_par w = false -> ~ symbol_of ditems w -> ~ mentions (sub l h) w ->
    (forall env, eval Ralg env (sub l h) = (eval Ralg env l - eval Ralg env h)%R) ->
    (forall e env, eval Ralg env (mulm1 e) = (eval Ralg env e * -1)%R) ->
    (forall e s, mentions (mulm1 e) s <-> mentions e s) ->
    as_constraint sub mulm1 w ord (CRel r l h) dm = Ok (cm, ty) ->
    forall ord2 inp valD args kw, set_order ord2 -> solution Ralg ditems inp valD ->
      supplies (named inp (m_indep cm ++ m_params cm)) args kw ->
      exists o g, call Ralg ord2 cm args kw = Ok o /\ m_dep cm = [w] /\ dget (mo_dict o) w = Some g /\
        (ty = REq \/ ty = RGe) /\
        (constraint_holds ty g <-> rel_holds r (eval Ralg valD l) (eval Ralg valD h)).
Proof.
  intros H1 H2 H3 H4 H5 H6 H7 H8 H9 H10 Hsub Hmul H11 Hc ord2 inp valD args kw Ho2 Hsol Hsup.
  destruct (as_constraint_ok Ralg sub mulm1 ord ordd ditems dm w r l h H1 H2 H3 H4 H5 H6 H7 H8 H9 H10 H11 cm ty Hc)
    as (Hty & Hdep & Hp & _ & _ & Hcall).
  rewrite Hp in Hsup. destruct (Hcall ord2 inp valD args kw Ho2 Hmul Hsol Hsup) as (o & Ho & Hg).
  eexists o, _. split; [exact Ho|]. split; [exact Hdep|]. split; [exact Hg|]. rewrite Hsub.
  unfold constraint_holds. destruct Hty as [[-> ->]|[[-> ->]|[-> ->]]]; simpl; (split; [tauto|]); lra.
Qed.

Lemma model_call_spec :
  forall V (A : alg V) ord1 ord2 (items : dict sym comp) m inp,
    set_order ord1 -> set_order ord2 ->
    is_dict items -> distinct_names items -> no_self_reference items ->
    (forall k, In k (dkeys items) -> is_par k = false) ->
    init_model ord1 items = Ok m ->
    exists val, solution A items inp val /\
      (forall val', solution A items inp val' -> forall k, In k (dkeys items) -> val' k = val k) /\
      forall args kw, supplies (named inp (m_indep m ++ m_params m)) args kw ->
        exists names, Permutation names (dkeys items) /\ alphabetical sname names /\
          call A ord2 m args kw = Ok {| mo_vars := names; mo_out := map val names |}.
Proof.
  intros V A ord1 ord2 items m inp Ho1 Ho2 Hd Hn Hs Hp Hi.
  destruct (solution_exists A ord1 items m inp Ho1 Hd Hs Hi) as (val & Hv & Hu).
  exists val. split; [exact Hv|]. split; [exact Hu|]. intros args kw Hsup.
  exists (sort_by sname (dkeys items)). split; [symmetry; apply sort_by_perm|]. split; [apply sort_by_sorted|].
  exact (call_symbolic A ord1 ord2 items m inp val args kw Ho1 Ho2 Hd Hn Hs Hp Hi Hv Hsup).
Qed.

Lemma classification_spec :
  forall V ord (items : dict sym (comp (V:=V))) m,
    set_order ord -> is_dict items -> init_model ord items = Ok m ->
    (forall s, In s (m_indep m) <-> symbol_of items s /\ is_par s = false /\ ~ In s (dkeys items)) /\
    (forall s, In s (m_params m) <-> symbol_of items s /\ is_par s = true /\ (forall t, refers items s t -> t = s)) /\
    (forall s, In s (m_dep m) -> In s (dkeys items) /\ (forall k, refers items k s -> k = s)) /\
    (forall s, In s (m_inter m) -> In s (dkeys items)) /\
    alphabetical sname (m_indep m) /\ alphabetical sname (m_params m) /\
    alphabetical sname (m_dep m) /\ alphabetical sname (m_inter m) /\
    NoDup (m_indep m) /\ NoDup (m_params m) /\ NoDup (m_dep m) /\ NoDup (m_inter m) /\
    (forall s, In s (m_dep m) -> ~ In s (m_inter m)).
Proof.
  intros V ord items m Ho Hd Hi.
  pose proof (lists_sorted ord items m Hi) as (S1 & S2 & S3 & S4 & _).
  pose proof (lists_nodup ord items m Ho Hd Hi) as (N1 & N2 & N3 & N4 & N5).
  repeat match goal with |- _ /\ _ => split end; auto.
  - exact (in_indep_iff ord items m Ho Hd Hi).
  - exact (in_params_iff ord items m Ho Hd Hi).
  - intros s Hs. destruct (in_dep_sound ord items m Ho Hd Hi s Hs) as (H1 & _ & H2). split; [exact H1|exact H2].
  - intros s Hs. exact (proj1 (in_inter_sound ord items m Ho Hd Hi s Hs)).
Qed.

Lemma call_styles_agree :
  forall V (A : alg V) ord1 ord2 (items : dict sym comp) m inp args kw args' kw',
    set_order ord1 -> set_order ord2 -> is_dict items -> distinct_names items -> no_self_reference items ->
    (forall k, In k (dkeys items) -> is_par k = false) ->
    init_model ord1 items = Ok m ->
    supplies (named inp (m_indep m ++ m_params m)) args kw ->
    supplies (named inp (m_indep m ++ m_params m)) args' kw' ->
    (exists out, call A ord2 m args kw = Ok out) /\ call A ord2 m args kw = call A ord2 m args' kw'.
Proof.
  intros V A ord1 ord2 items m inp args kw args' kw' Ho1 Ho2 Hd Hn Hs Hp Hi S1 S2.
  destruct (solution_exists A ord1 items m inp Ho1 Hd Hs Hi) as (val & Hv & _).
  rewrite (call_symbolic A ord1 ord2 items m inp val args kw), (call_symbolic A ord1 ord2 items m inp val args' kw'); auto.
  split; [eauto|reflexivity].
Qed.

