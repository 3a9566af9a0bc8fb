(** * NumMain: calling and comparing numerical models. *)
From Verif Require Import PyBase PyFacts Toposort ToposortFacts Signature SignatureFacts Expr Model ModelSpec ModelFacts CallFacts NumModel NumSpec.

Section Num.
  Context {V : Type} (A : alg V).
  Notation model := (model (V:=V)).
  Notation comp := (comp (V:=V)).

  Definition only_exprs (items : dict sym comp) : dict sym comp :=
    filter (fun kc => match snd kc with CExpr _ => true | _ => false end) items.

  Lemma only_exprs_In items k c : In (k, c) (only_exprs items) <-> In (k, c) items /\ exists e, c = CExpr e.
  Proof.
    unfold only_exprs. rewrite filter_In. simpl. destruct c as [e|i f]; split.
    - intros [H _]. eauto.
    - intros [H _]. auto.
    - intros [_ H]. discriminate.
    - intros [_ (e & H)]. discriminate.
  Qed.

  Lemma init_numerical_inv ord (items : dict sym comp) user m : init_numerical ord items user = Ok m ->
    exists conn, classify ord (sort_items items) conn = Ok m /\
      (conn = user /\ only_exprs items = [] \/
       conn = dupdate (sym_conn ord (sort_items (only_exprs items))) user).
  Proof.
    unfold init_numerical. destruct user as [|u user]; [discriminate|]. fold (only_exprs items).
    intros H. apply bind_Ok in H as (conn & Hc & H). exists conn. split; [exact H|].
    destruct (only_exprs items) as [|x sub] eqn:E; [left; inv Hc; auto|]. rewrite <- E in *.
    right. apply bind_Ok in Hc as (sm & Hs & Hc). injection Hc as <-.
    destruct (init_model_inv _ _ _ Hs) as (_ & _ & -> & _). reflexivity.
  Qed.

  Section Facts.
    Context (ord : list sym -> list sym) (items : dict sym comp) (user : dict sym (list sym)) (m : model).
    Context (Ho : set_order ord) (Hp : proper_numerical items user) (Hi : init_numerical ord items user = Ok m).

    Lemma nm_dict : m_dict m = sort_items items.
    Proof.
      destruct (init_numerical_inv _ _ _ _ Hi) as (conn & Hc & _).
      destruct (classify_inv _ _ _ _ Hc) as (l0 & mid & top & _ & H & _). exact H.
    Qed.
    Lemma nm_keys s : In s (dkeys (m_dict m)) <-> In s (dkeys items).
    Proof. rewrite nm_dict. symmetry. apply dkeys_perm, sort_items_perm. Qed.
    Lemma sub_dict : is_dict (only_exprs items).
    Proof.
      pose proof (pn_dict _ _ Hp) as Hd. unfold is_dict, dkeys, only_exprs in *.
      clear - Hd. induction items as [|[k c] l IH]; simpl in *; [exact Hd|]. apply NoDup_cons_iff in Hd as [H1 H2].
      destruct c; simpl; [|auto]. constructor; [|auto]. intros H. apply H1. apply in_map_iff in H as (x & E & H).
      apply filter_In in H as [H _]. apply in_map_iff. exists x. auto.
    Qed.

    Lemma nm_dget k : dget (m_conn m) k = match dget user k with
        | Some deps => Some deps
        | None => match dget items k with Some (CExpr e) => Some (expr_deps ord e) | _ => None end end.
    Proof.
      destruct (init_numerical_inv _ _ _ _ Hi) as (conn & Hc & Hconn).
      destruct (classify_inv _ _ _ _ Hc) as (l0 & mid & top & _ & _ & -> & _).
      destruct Hconn as [[-> Hn] | ->].
      - destruct (dget user k) eqn:E; [reflexivity|]. destruct (dget items k) as [[e|]|] eqn:Ei; try reflexivity.
        exfalso. apply dget_In in Ei. assert (In (k, CExpr e) (only_exprs items)) by (apply only_exprs_In; eauto).
        rewrite Hn in H. exact H.
      - rewrite dget_dupdate_nodup by apply (pn_user _ _ Hp). destruct (dget user k) as [deps|] eqn:E; [reflexivity|].
        assert (Hd : is_dict (sort_items (only_exprs items))).
        { eapply Permutation_NoDup; [apply Permutation_map, sort_items_perm|exact sub_dict]. }
        destruct (dget items k) as [[e|i f]|] eqn:Ei.
        + apply In_dget; [rewrite dkeys_sym_conn; exact Hd|]. unfold sym_conn. apply in_map_iff. exists (k, CExpr e). split; [reflexivity|].
          eapply Permutation_in; [apply sort_items_perm|]. apply only_exprs_In. split; [apply dget_In; exact Ei|eauto].
        + apply dget_None. rewrite dkeys_sym_conn. intros H. apply (dkeys_perm _ _ (sort_items_perm (only_exprs items))) in H.
          apply in_map_iff in H as ([k' c] & Ek & H). simpl in Ek. subst k'. apply only_exprs_In in H as [H (e & ->)].
          apply (In_dget _ _ _ (pn_dict _ _ Hp)) in H. congruence.
        + apply dget_None. rewrite dkeys_sym_conn. intros H. apply (dkeys_perm _ _ (sort_items_perm (only_exprs items))) in H.
          apply in_map_iff in H as ([k' c] & Ek & H). simpl in Ek. subst k'. apply only_exprs_In in H as [H (e & ->)].
          apply (In_dget _ _ _ (pn_dict _ _ Hp)) in H. congruence.
    Qed.

    Lemma nm_conn_nodup : NoDup (dkeys (m_conn m)).
    Proof.
      destruct (init_numerical_inv _ _ _ _ Hi) as (conn & Hc & Hconn).
      destruct (classify_inv _ _ _ _ Hc) as (l0 & mid & top & _ & _ & -> & _).
      destruct Hconn as [[-> _] | ->]; [apply (pn_user _ _ Hp)|].
      apply NoDup_dupdate. rewrite dkeys_sym_conn. eapply Permutation_NoDup; [apply Permutation_map, sort_items_perm|exact sub_dict].
    Qed.
    Lemma nm_conn_In k deps : In (k, deps) (m_conn m) <-> dget (m_conn m) k = Some deps.
    Proof. split; [apply In_dget; exact nm_conn_nodup|apply dget_In]. Qed.
    Lemma nm_conn_keys s : In s (dkeys (m_conn m)) <-> In s (dkeys (m_dict m)).
    Proof.
      rewrite nm_keys, <- dget_keys, nm_dget. destruct (dget user s) as [deps|] eqn:E.
      - split; [|congruence]. intros _. apply (pn_keys _ _ Hp). apply dget_keys. congruence.
      - rewrite <- dget_keys. destruct (dget items s) as [[e|i f]|] eqn:Ei; [split; congruence| |split; congruence].
        exfalso. apply dget_In in Ei. apply (pn_callables _ _ Hp) in Ei. apply dget_keys in Ei. congruence.
    Qed.
    Lemma nm_edge x y : dep_edge (m_conn m) x y <-> depends items user x y.
    Proof.
      unfold dep_edge, depends. split.
      - intros (ds & Hin & Hy). apply nm_conn_In in Hin. rewrite nm_dget in Hin. destruct (dget user x) as [deps|] eqn:E; [congruence|].
        destruct (dget items x) as [[e|]|] eqn:Ei; try discriminate. injection Hin as <-. exists e. split; [apply dget_In; exact Ei|].
        apply (in_expr_deps ord); assumption.
      - destruct (dget user x) as [deps|] eqn:E.
        + intros Hy. exists deps. split; [|exact Hy]. apply nm_conn_In. rewrite nm_dget, E. reflexivity.
        + intros (e & Hin & Hm). exists (expr_deps ord e). split; [|apply in_expr_deps; assumption]. apply nm_conn_In.
          rewrite nm_dget, E. apply (In_dget _ _ _ (pn_dict _ _ Hp)) in Hin. rewrite Hin. reflexivity.
    Qed.
    Lemma nm_node s : node (m_conn m) s <-> nsymbol items user s.
    Proof.
      unfold node, nsymbol. rewrite nm_conn_keys, nm_keys.
      split; (intros [H|(k & H)]; [left; exact H|right; exists k; apply nm_edge; exact H]).
    Qed.

    Lemma nm_wf : well_formed m.
    Proof.
      constructor.
      - rewrite nm_dict. eapply Permutation_NoDup; [apply Permutation_map, sort_items_perm|apply (pn_dict _ _ Hp)].
      - exact nm_conn_nodup.
      - exact nm_conn_keys.
      - intros s deps H. apply nm_conn_In in H. rewrite nm_dget in H. destruct (dget user s) as [d|] eqn:E.
        + injection H as <-. apply dget_In in E. exact (pn_sets _ _ Hp _ _ E).
        + destruct (dget items s) as [[e|]|]; try discriminate. injection H as <-. apply NoDup_expr_deps. exact Ho.
      - intros s deps H Hs. apply (pn_noself _ _ Hp s). apply nm_edge. exists deps. auto.
      - intros s t Hs Ht. apply (pn_names _ _ Hp); apply nm_node; assumption.
    Qed.

    Lemma nm_layers : exists l0 mid top, toposort (m_conn m) = Ok (l0 :: mid ++ [top]) /\
      (forall s, In s (m_indep m) <-> In s l0 /\ is_par s = false /\ ~ In s (dkeys items)) /\
      (forall s, In s (m_params m) <-> In s l0 /\ is_par s = true) /\
      m_sig m = required (map sname (m_indep m ++ m_params m)) /\ NoDup (map sname (m_indep m ++ m_params m)) /\
      alphabetical sname (m_indep m) /\ alphabetical sname (m_params m).
    Proof.
      destruct (init_numerical_inv _ _ _ _ Hi) as (conn & Hc & _).
      destruct (classify_inv _ _ _ _ Hc) as (l0 & mid & top & Ht & H1 & H2 & E1 & E2 & _ & _ & Hsig & _).
      rewrite <- H2 in Ht. exists l0, mid, top. split; [exact Ht|].
      assert (Hfilt : forall (f : sym -> bool) l, alphabetical sname l -> alphabetical sname (filter f l)).
      { intros f l. unfold alphabetical. induction 1 as [|x l Hl IH Hx]; simpl; [constructor|].
        destruct (f x); [|exact IH]. constructor; [exact IH|]. rewrite Forall_forall in *.
        intros y Hy. apply filter_In in Hy as [Hy _]. auto. }
      apply make_signature_ok in Hsig as [Hsig Hn].
      split; [|split; [|split; [exact Hsig|split; [exact Hn|split]]]].
      - intros s. rewrite E1, filter_In, in_sort_by, in_ord by exact Ho. rewrite andb_true_iff, !negb_true_iff, dmem_false.
        rewrite <- (dkeys_perm _ _ (sort_items_perm items)). tauto.
      - intros s. rewrite E2, filter_In, in_sort_by, in_ord by exact Ho. tauto.
      - rewrite E1. apply Hfilt, sort_by_sorted.
      - rewrite E2. apply Hfilt, sort_by_sorted.
    Qed.

    Lemma nm_depends_key k s : depends items user k s -> In k (dkeys items).
    Proof.
      unfold depends. destruct (dget user k) as [d|] eqn:E.
      - intros _. apply (pn_keys _ _ Hp). apply dget_keys. congruence.
      - intros (e & Hin & _). change k with (fst (k, CExpr (V:=V) e)). apply in_map. exact Hin.
    Qed.
    Lemma nm_input s : In s (m_indep m ++ m_params m) <-> nsymbol items user s /\ ~ In s (dkeys items).
    Proof.
      destruct nm_layers as (l0 & mid & top & Ht & H1 & H2 & _).
      assert (H0 : In s l0 <-> nsymbol items user s /\ forall t, ~ depends items user s t).
      { rewrite (toposort_layer0 _ _ _ nm_conn_nodup Ht), nm_node. split; intros [Hn He]; (split; [exact Hn|]).
        - intros t Hd. apply (He t). split; [apply nm_edge; exact Hd|]. intros ->. exact (pn_noself _ _ Hp _ Hd).
        - intros t [Hd _]. apply (He t). apply nm_edge. exact Hd. }
      rewrite in_app_iff, H1, H2, H0. split.
      - intros [((Hn & _) & _ & Hk)|((Hn & _) & Hpar)]; (split; [exact Hn|]); [exact Hk|].
        intros Hk. rewrite (pn_vars _ _ Hp s Hk) in Hpar. discriminate.
      - intros [Hn Hk]. assert (Hz : forall t, ~ depends items user s t) by (intros t Hd; exact (Hk (nm_depends_key _ _ Hd))).
        destruct (is_par s); [right|left]; auto.
    Qed.
    Lemma nm_indep s : In s (m_indep m) <-> nsymbol items user s /\ ~ In s (dkeys items) /\ is_par s = false.
    Proof.
      pose proof (nm_input s) as Hin. destruct nm_layers as (l0 & mid & top & Ht & H1 & H2 & _). rewrite in_app_iff in Hin. split.
      - intros H. destruct (proj1 Hin (or_introl H)) as [A1 A2]. apply H1 in H as (_ & H & _). auto.
      - intros (A1 & A2 & A3). destruct (proj2 Hin (conj A1 A2)) as [H|H]; [exact H|]. apply H2 in H as [_ H]. congruence.
    Qed.
    Lemma nm_params s : In s (m_params m) <-> nsymbol items user s /\ is_par s = true.
    Proof.
      pose proof (nm_input s) as Hin. destruct nm_layers as (l0 & mid & top & Ht & H1 & H2 & _). rewrite in_app_iff in Hin. split.
      - intros H. destruct (proj1 Hin (or_intror H)) as [A1 A2]. apply H2 in H as (_ & H). auto.
      - intros (A1 & A3). assert (A2 : ~ In s (dkeys items)) by (intros Hk; rewrite (pn_vars _ _ Hp s Hk) in A3; discriminate).
        destruct (proj2 Hin (conj A1 A2)) as [H|H]; [|exact H]. apply H1 in H as (_ & H & _). congruence.
    Qed.

    Lemma nm_solves inp val : nsolution A items user inp val -> solves_m A m val.
    Proof.
      intros (He & Hf & _) s c deps kw Hc Hdeps Hperm.
      assert (Hin : In (s, c) items).
      { eapply Permutation_in; [symmetry; apply sort_items_perm|]. rewrite <- nm_dict. apply dget_In; exact Hc. }
      pose proof nm_wf as Hwf.
      assert (Hde : In (s, deps) (m_conn m)) by (apply dget_In; exact Hdeps).
      assert (Hinj : forall x y, In x deps -> In y deps -> sname x = sname y -> x = y).
      { intros x y Hx Hy. apply (wf_names m Hwf); right; exists s, deps; auto. }
      destruct c as [e|i f].
      - rewrite (He s e Hin). eapply comp_fun_expr; eauto.
        + apply (wf_deps m Hwf s); exact Hde.
        + intros t Ht. pose proof Hdeps as Hd2. rewrite nm_dget in Hd2. destruct (dget user s) as [d|] eqn:Eu.
          * injection Hd2 as ->. apply (pn_exprs _ _ Hp s e); auto. apply dget_In. exact Eu.
          * apply (In_dget _ _ _ (pn_dict _ _ Hp)) in Hin. rewrite Hin in Hd2. injection Hd2 as <-.
            apply in_expr_deps; [exact Ho|left; exact Ht].
      - unfold comp_fun, numerical_component. simpl. apply (Hf s i f kw Hin).
        + eapply Permutation_NoDup; [symmetry; apply Permutation_map; exact Hperm|]. rewrite map_map. simpl.
          pose proof (wf_deps m Hwf s deps Hde) as Hnd. clear - Hnd Hinj.
          induction Hnd as [|d l Hd Hl IH]; simpl; constructor.
          * intros Hi. apply in_map_iff in Hi as (d' & He & Hd'). apply Hd. rewrite <- (Hinj d' d); simpl; auto.
          * apply IH. intros; apply Hinj; simpl; auto.
        + intros n v. rewrite (in_perm_iff _ _ (n, v) Hperm), in_map_iff. split.
          * intros (d & E & Hd). injection E as <- <-. exists d. split; [|auto]. apply nm_edge. exists deps. auto.
          * intros (d & Hd & -> & ->). exists d. split; [reflexivity|]. apply nm_edge in Hd as (ds & H1 & H2).
            apply nm_conn_In in H1. rewrite Hdeps in H1. injection H1 as ->. exact H2.
    Qed.
  End Facts.

  Theorem numerical_call ord1 ord2 (items : dict sym comp) user m inp val args kw :
    set_order ord1 -> set_order ord2 -> proper_numerical items user -> init_numerical ord1 items user = Ok m ->
    nsolution A items user inp val ->
    supplies (named inp (m_indep m ++ m_params m)) args kw ->
    exists names, Permutation names (dkeys items) /\ alphabetical sname names /\
      call A ord2 m args kw = Ok {| mo_vars := names; mo_out := map val names |}.
  Proof.
    intros Ho1 Ho2 Hp Hi Hsol Hsup. exists (dkeys (m_dict m)).
    split; [rewrite (nm_dict ord1 items user m Hi); symmetry; apply Permutation_map, sort_items_perm|].
    split; [rewrite (nm_dict ord1 items user m Hi), dkeys_sort_items; apply sort_by_sorted|].
    destruct (nm_layers ord1 items user m Ho1 Hi) as (l0 & mid & top & Ht & H1 & H2 & Hsig & Hn & _).
    destruct (toposort_ordered ord2 m _ Ht) as (syms & Hsyms).
    apply (call_gen A ord2 m val inp (m_indep m ++ m_params m) args kw syms); auto.
    - exact (nm_wf ord1 items user m Ho1 Hp Hi).
    - exact (nm_solves ord1 items user m Ho1 Hp Hi inp val Hsol).
    - intros s Hs Hk. apply (nm_input ord1 items user m Ho1 Hp Hi). split; [apply (nm_node ord1 items user m Ho1 Hp Hi); exact Hs|].
      intros H. apply Hk. apply (nm_keys ord1 items user m Hi). exact H.
    - intros s Hk Hin. apply (nm_keys ord1 items user m Hi) in Hk. apply in_map_iff in Hin as (t & He & Ht').
      apply (nm_input ord1 items user m Ho1 Hp Hi) in Ht' as [Hts Htk].
      assert (t = s) by (apply (pn_names _ _ Hp); auto; left; exact Hk). congruence.
    - intros s Hs. apply (nm_input ord1 items user m Ho1 Hp Hi) in Hs as [_ Hs]. destruct Hsol as (_ & _ & H3). apply H3. exact Hs.
  Qed.

  Theorem numerical_classification ord (items : dict sym comp) user m :
    set_order ord -> proper_numerical items user -> init_numerical ord items user = Ok m ->
    (forall s, In s (m_indep m) <-> nsymbol items user s /\ ~ In s (dkeys items) /\ is_par s = false) /\
    (forall s, In s (m_params m) <-> nsymbol items user s /\ is_par s = true) /\
    alphabetical sname (m_indep m) /\ alphabetical sname (m_params m) /\
    m_sig m = required (map sname (m_indep m ++ m_params m)).
  Proof.
    intros Ho Hp Hi. split; [intros s; exact (nm_indep ord items user m Ho Hp Hi s)|].
    split; [intros s; exact (nm_params ord items user m Ho Hp Hi s)|].
    destruct (nm_layers ord items user m Ho Hi) as (l0 & mid & top & Ht & H1 & H2 & Hsig & Hn & Ha & Hb). auto.
  Qed.

  (** ** equality *)
  Lemma set_eq_iff l k : set_eq l k = true <-> forall x, In x l <-> In x k.
  Proof.
    unfold set_eq. rewrite andb_true_iff, !forallb_forall. split.
    - intros [H1 H2] x. split; intros H; apply inb_In; auto.
    - intros H. split; intros x Hx; apply inb_In; apply H; exact Hx.
  Qed.
  Lemma comp_eq_iff (a b : comp) : comp_eq a b = true <->
    (exists e, a = CExpr e /\ b = CExpr e) \/ (exists i f g, a = CFun i f /\ b = CFun i g).
  Proof.
    destruct a as [e|i f], b as [e'|j g]; simpl.
    - rewrite eqb_true. split; [intros ->; eauto|]. intros [(x & H1 & H2)|(x & y & z & H1 & _)]; [congruence|discriminate].
    - split; [discriminate|]. intros [(x & H1 & H2)|(x & y & z & H1 & H2)]; discriminate.
    - split; [discriminate|]. intros [(x & H1 & H2)|(x & y & z & H1 & H2)]; discriminate.
    - rewrite Nat.eqb_eq. split; [intros ->; right; eauto|]. intros [(x & H1 & H2)|(x & y & z & H1 & H2)]; [discriminate|congruence].
  Qed.
  Lemma eq_loop_spec (d other : dict sym comp) : (forall k, In k (dkeys d) -> In k (dkeys other)) ->
    exists b, eq_loop d other = Ok b /\ (b = true <-> forall k f, In (k, f) d -> exists g, dget other k = Some g /\ comp_eq f g = true).
  Proof.
    induction d as [|[k f] d IH]; simpl; intros Hk.
    - exists true. split; [reflexivity|]. split; [intros _ k f []|reflexivity].
    - destruct (dget other k) as [g|] eqn:E; [|exfalso; apply dget_None in E; apply E, Hk; left; reflexivity].
      unfold dlook. rewrite E. cbn [of_opt bind]. destruct (IH ltac:(intros k' H; apply Hk; right; exact H)) as (b & Hb & Hiff).
      destruct (comp_eq f g) eqn:Ec.
      + exists b. split; [exact Hb|]. rewrite Hiff. split.
        * intros H k' f' [E2|Hin]; [injection E2 as <- <-; eauto|auto].
        * intros H k' f' Hin. apply H. right. exact Hin.
      + exists false. split; [reflexivity|]. split; [discriminate|]. intros H. destruct (H k f (or_introl eq_refl)) as (g' & H1 & H2). congruence.
  Qed.

  Lemma conn_eq_iff (c1 c2 : dict sym (list sym)) : NoDup (dkeys c1) -> NoDup (dkeys c2) ->
    conn_eq c1 c2 = true <->
    (forall k, In k (dkeys c1) <-> In k (dkeys c2)) /\ (forall k s, dep_edge c1 k s <-> dep_edge c2 k s).
  Proof.
    intros N1 N2. unfold conn_eq. rewrite andb_true_iff, Nat.eqb_eq, forallb_forall. split.
    - intros [Hl H].
      assert (Hinc : incl (dkeys c1) (dkeys c2)).
      { intros k Hk. apply in_map_iff in Hk as ([k' d] & <- & Hin). specialize (H _ Hin). simpl in *. apply dget_keys.
        destruct (dget c2 k'); congruence. }
      assert (Hinc2 : incl (dkeys c2) (dkeys c1)).
      { apply NoDup_length_incl; [exact N1| |exact Hinc]. unfold dkeys. rewrite !map_length. lia. }
      split; [intros k; split; auto|]. intros k s. split.
      + intros (ds & Hin & Hs). specialize (H _ Hin). simpl in H. destruct (dget c2 k) as [d2|] eqn:E; [|discriminate].
        exists d2. split; [apply dget_In; exact E|]. apply (proj1 (set_eq_iff _ _) H). exact Hs.
      + intros (ds & Hin & Hs). assert (Hk : In k (dkeys c1)) by (apply Hinc2; change k with (fst (k, ds)); apply in_map; exact Hin).
        apply in_map_iff in Hk as ([k' d] & Ek & Hin1). simpl in Ek. subst k'. specialize (H _ Hin1). simpl in H.
        rewrite (In_dget _ _ _ N2 Hin) in H. exists d. split; [exact Hin1|]. apply (proj1 (set_eq_iff _ _) H). exact Hs.
    - intros [Hk He]. split.
      + assert (List.length (dkeys c1) = List.length (dkeys c2)).
        { apply Nat.le_antisymm; apply NoDup_incl_length; auto; intros k; apply Hk. }
        unfold dkeys in *. rewrite !map_length in *. exact H.
      + intros [k d] Hin. simpl. assert (Hk2 : In k (dkeys c2)) by (apply Hk; change k with (fst (k, d)); apply in_map; exact Hin).
        apply in_map_iff in Hk2 as ([k' d2] & Ek & Hin2). simpl in Ek. subst k'. rewrite (In_dget _ _ _ N2 Hin2).
        apply set_eq_iff. intros x. split; intros Hx.
        * assert (Hd : dep_edge c2 k x) by (apply He; exists d; auto). destruct Hd as (d' & H1 & H2).
          apply (In_dget _ _ _ N2) in H1. apply (In_dget _ _ _ N2) in Hin2. congruence.
        * assert (Hd : dep_edge c1 k x) by (apply He; exists d2; auto). destruct Hd as (d' & H1 & H2).
          apply (In_dget _ _ _ N1) in H1. apply (In_dget _ _ _ N1) in Hin. congruence.
  Qed.

  (** Two proper numerical models are equal when they have the same components with the
      same dependencies, and the components are the same expressions or function objects. *)
  Theorem numerical_equality ord1 ord2 (i1 i2 : dict sym comp) u1 u2 m1 m2 :
    set_order ord1 -> set_order ord2 -> proper_numerical i1 u1 -> proper_numerical i2 u2 ->
    init_numerical ord1 i1 u1 = Ok m1 -> init_numerical ord2 i2 u2 = Ok m2 ->
    exists b, num_eq m1 m2 = Ok b /\
      (b = true <-> (forall k, In k (dkeys i1) <-> In k (dkeys i2)) /\
                    (forall k s, depends i1 u1 k s <-> depends i2 u2 k s) /\
                    (forall k c1 c2, In (k, c1) i1 -> In (k, c2) i2 ->
                       (exists e, c1 = CExpr e /\ c2 = CExpr e) \/ (exists i f g, c1 = CFun i f /\ c2 = CFun i g))).
  Proof.
    intros Ho1 Ho2 P1 P2 I1 I2. unfold num_eq.
    pose proof (nm_conn_nodup ord1 i1 u1 m1 P1 I1) as N1. pose proof (nm_conn_nodup ord2 i2 u2 m2 P2 I2) as N2.
    assert (Hkeys : (forall k, In k (dkeys (m_conn m1)) <-> In k (dkeys (m_conn m2))) <-> (forall k, In k (dkeys i1) <-> In k (dkeys i2))).
    { split; intros H k; specialize (H k); rewrite (nm_conn_keys ord1 i1 u1 m1 P1 I1 k), (nm_conn_keys ord2 i2 u2 m2 P2 I2 k), (nm_keys ord1 i1 u1 m1 I1 k), (nm_keys ord2 i2 u2 m2 I2 k) in *; exact H. }
    assert (Hedges : (forall k s, dep_edge (m_conn m1) k s <-> dep_edge (m_conn m2) k s) <-> (forall k s, depends i1 u1 k s <-> depends i2 u2 k s)).
    { split; intros H k s; specialize (H k s); rewrite (nm_edge ord1 i1 u1 m1 Ho1 P1 I1 k s), (nm_edge ord2 i2 u2 m2 Ho2 P2 I2 k s) in *; exact H. }
    destruct (conn_eq (m_conn m1) (m_conn m2)) eqn:E.
    - apply (conn_eq_iff _ _ N1 N2) in E as [K1 K2]. rewrite Hkeys in K1. rewrite Hedges in K2.
      destruct (eq_loop_spec (m_dict m1) (m_dict m2)) as (b & Hb & Hiff).
      { intros k H. apply (nm_keys ord2 i2 u2 m2 I2). apply K1. apply (nm_keys ord1 i1 u1 m1 I1). exact H. }
      exists b. split; [exact Hb|]. rewrite Hiff.
      assert (Hin1 : forall k c, In (k, c) (m_dict m1) <-> In (k, c) i1).
      { intros k c. rewrite (nm_dict ord1 i1 u1 m1 I1). apply in_perm_iff. symmetry. apply sort_items_perm. }
      assert (Hin2 : forall k c, In (k, c) (m_dict m2) <-> In (k, c) i2).
      { intros k c. rewrite (nm_dict ord2 i2 u2 m2 I2). apply in_perm_iff. symmetry. apply sort_items_perm. }
      pose proof (wf_dict m2 (nm_wf ord2 i2 u2 m2 Ho2 P2 I2)) as D2. split.
      + intros H. split; [exact K1|]. split; [exact K2|]. intros k c1 c2 H1 H2. apply Hin1 in H1. apply Hin2 in H2.
        destruct (H k c1 H1) as (g & Hg & Hc). apply (In_dget _ _ _ D2) in H2. rewrite H2 in Hg. injection Hg as <-.
        apply comp_eq_iff. exact Hc.
      + intros (_ & _ & H) k f Hf. apply Hin1 in Hf.
        assert (Hk : In k (dkeys i2)) by (apply K1; change k with (fst (k, f)); apply in_map; exact Hf).
        apply in_map_iff in Hk as ([k' g] & Ek & Hg). simpl in Ek. subst k'. exists g.
        split; [apply (In_dget _ _ _ D2); apply Hin2; exact Hg|]. apply comp_eq_iff. exact (H k f g Hf Hg).
    - exists false. split; [reflexivity|]. split; [discriminate|]. intros (K1 & K2 & _).
      assert (conn_eq (m_conn m1) (m_conn m2) = true); [|congruence].
      apply (conn_eq_iff _ _ N1 N2). split; [apply Hkeys; exact K1|apply Hedges; exact K2].
  Qed.

  (** ** the deprecated constructor *)
  Theorem deprecated_same ord (items : dict sym comp) indep params : items <> [] ->
    (forall k c, In (k, c) items -> exists i f, c = CFun i f) ->
    init_deprecated ord items indep params =
    init_numerical ord items (map (fun kc => (fst kc, dedup (indep ++ params))) items).
  Proof.
    intros Hne Hf. unfold init_deprecated, init_numerical. destruct items as [|[k c] items'] eqn:E; [contradiction|]. rewrite <- E in *.
    assert (Hs : filter (fun kc : sym * comp => match snd kc with CExpr _ => true | _ => false end) items = []).
    { clear E Hne. induction items as [|[k' c'] l IH]; simpl; [reflexivity|]. destruct (Hf k' c' (or_introl eq_refl)) as (i & f & ->).
      apply IH. intros k0 c0 H. apply (Hf k0 c0). right. exact H. }
    destruct (map _ items) as [|x l] eqn:Em; [subst items; discriminate|]. rewrite Hs. reflexivity.
  Qed.
End Num.
