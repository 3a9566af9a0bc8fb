(** * ConstraintFacts: with_dependencies and as_constraint. *)
From Verif Require Import PyBase PyFacts Toposort ToposortFacts LayerFacts Signature SignatureFacts Expr Model ModelSpec ModelFacts CallFacts InitFacts.
From Coq Require Import Relations.

Section ConstraintFacts.
  Context {V : Type} (A : alg V).
  Notation model := (model (V:=V)).
  Notation comp := (comp (V:=V)).

  (** *** the walk over the ordered symbols *)
  Fixpoint upto (var : sym) (syms : list sym) : list sym :=
    match syms with
    | [] => []
    | s :: syms' => if eqb s var then [s] else s :: upto var syms'
    end.

  Lemma upto_prefix var syms : exists rest, syms = upto var syms ++ rest.
  Proof.
    induction syms as [|s syms IH]; simpl; [exists []; reflexivity|].
    destruct (eqb s var); [exists syms; reflexivity|]. destruct IH as (r & Hr). exists r. simpl. rewrite <- Hr. reflexivity.
  Qed.
  Lemma upto_in var syms : In var syms -> In var (upto var syms).
  Proof.
    induction syms as [|s syms IH]; simpl; [tauto|]. intros Hv.
    destruct (eqb s var) eqn:He; [apply (proj1 (eqb_true _ _)) in He; left; exact He|].
    destruct Hv as [Hv|Hv]; [apply (proj1 (eqb_false _ _)) in He; congruence|right; auto].
  Qed.
  Lemma upto_last var syms : In var syms -> exists pre, upto var syms = pre ++ [var].
  Proof.
    induction syms as [|s syms IH]; simpl; [tauto|]. intros Hv.
    destruct (eqb s var) eqn:He; [apply (proj1 (eqb_true _ _)) in He; subst; exists []; reflexivity|].
    destruct Hv as [Hv|Hv]; [apply (proj1 (eqb_false _ _)) in He; congruence|]. destruct (IH Hv) as (p & Hp). exists (s :: p). rewrite Hp; reflexivity.
  Qed.

  Definition add_one (dm : model) (d : dict sym comp) (s : sym) : dict sym comp :=
    match dget (m_dict dm) s with Some c => if dmem d s then d else dset d s c | None => d end.
  Lemma add_until_fold dm var syms d : add_until dm var syms d = fold_left (add_one dm) (upto var syms) d.
  Proof.
    revert d; induction syms as [|s syms IH]; intros d; simpl; [reflexivity|].
    destruct (eqb s var); simpl; [reflexivity|]. apply IH.
  Qed.

  Lemma dget_add_one dm d s k : dget (add_one dm d s) k =
    match dget d k with Some c => Some c | None => if eq_dec k s then dget (m_dict dm) k else None end.
  Proof.
    unfold add_one. destruct (dget (m_dict dm) s) as [c|] eqn:Hs.
    - unfold dmem. destruct (dget d s) as [c'|] eqn:Hd.
      + destruct (dget d k) eqn:Hk; [reflexivity|]. destruct (eq_dec k s) as [->|]; [congruence|reflexivity].
      + rewrite dget_dset. destruct (eq_dec k s) as [->|]; [rewrite Hd; symmetry; exact Hs|]. destruct (dget d k); reflexivity.
    - destruct (dget d k); [reflexivity|]. destruct (eq_dec k s) as [->|]; [symmetry; exact Hs|reflexivity].
  Qed.
  Lemma dget_add_list dm l : forall d k, dget (fold_left (add_one dm) l d) k =
    match dget d k with Some c => Some c | None => if inb k l then dget (m_dict dm) k else None end.
  Proof.
    induction l as [|s l IH]; intros d k; simpl.
    - destruct (dget d k); reflexivity.
    - rewrite IH, dget_add_one. destruct (dget d k); [reflexivity|].
      unfold inb; simpl. unfold eqb at 2. destruct (eq_dec k s) as [->|]; simpl.
      + destruct (dget (m_dict dm) s); [reflexivity|]. fold (inb s l). destruct (inb s l); reflexivity.
      + reflexivity.
  Qed.
  Lemma NoDup_add_one dm d s : NoDup (dkeys d) -> NoDup (dkeys (add_one dm d s)).
  Proof.
    intros Hd. unfold add_one. destruct (dget (m_dict dm) s); [|exact Hd]. destruct (dmem d s); [exact Hd|]. apply NoDup_dset; exact Hd.
  Qed.
  Lemma NoDup_add_list dm l : forall d, NoDup (dkeys d) -> NoDup (dkeys (fold_left (add_one dm) l d)).
  Proof. induction l as [|s l IH]; intros d Hd; simpl; [exact Hd|]. apply IH, NoDup_add_one; exact Hd. Qed.

  (** the symbols visited by the whole loop *)
  Definition visited (dm : model) (syms vars : list sym) : list sym :=
    flat_map (fun v => if dmem (m_dict dm) v then upto v syms else []) vars.
  Lemma walk_fold dm syms vars : forall d,
    fold_left (fun d v => if dmem (m_dict dm) v then add_until dm v syms d else d) vars d =
    fold_left (add_one dm) (visited dm syms vars) d.
  Proof.
    induction vars as [|v vars IH]; intros d; simpl; [reflexivity|].
    rewrite fold_left_app, IH. destruct (dmem (m_dict dm) v); [rewrite add_until_fold|]; reflexivity.
  Qed.

  (** *** with_dependencies *)
  Section WithDeps.
    Context (ord ordd : list sym -> list sym) (items ditems : dict sym comp) (dm : model).
    Context (Ho : set_order ord) (Hod : set_order ordd).
    Context (Hd : is_dict items) (Hdd : is_dict ditems).
    Context (Hdm : init_model ordd ditems = Ok dm).
    Context (Hn : distinct_names (items ++ ditems)).
    Context (Hkp : forall k, In k (dkeys ditems) -> is_par k = false).

    Lemma symbol_of_l s : symbol_of items s -> symbol_of (items ++ ditems) s.
    Proof using. clear.
      intros [Hs|(k & e & Hs & Hm)].
      - left. unfold dkeys in *. rewrite map_app. apply in_or_app; auto.
      - right. exists k, e. split; [apply in_or_app; auto|exact Hm].
    Qed.
    Lemma symbol_of_r s : symbol_of ditems s -> symbol_of (items ++ ditems) s.
    Proof using. clear.
      intros [Hs|(k & e & Hs & Hm)].
      - left. unfold dkeys in *. rewrite map_app. apply in_or_app; auto.
      - right. exists k, e. split; [apply in_or_app; auto|exact Hm].
    Qed.
    Lemma distinct_l : distinct_names items.
    Proof using Hn. intros s t H1 H2. apply Hn; apply symbol_of_l; assumption. Qed.
    Lemma distinct_r : distinct_names ditems.
    Proof using Hn. intros s t H1 H2. apply Hn; apply symbol_of_r; assumption. Qed.

    Lemma dm_dict : m_dict dm = sort_items ditems.
    Proof using Hdm. destruct (init_model_inv _ _ _ Hdm) as (_ & H & _); exact H. Qed.
    Lemma dm_get k : dget (m_dict dm) k = dget ditems k.
    Proof using Hdm Hdd. rewrite dm_dict. symmetry. apply dget_perm; [exact Hdd|apply sort_items_perm]. Qed.
    Lemma dm_mem k : dmem (m_dict dm) k = true <-> In k (dkeys ditems).
    Proof using Hdm Hdd. unfold dmem. rewrite dm_get. fold (dmem ditems k). apply dmem_keys. Qed.

    Lemma dm_symbols syms : ordered_symbols ord dm = Ok syms ->
      NoDup syms /\ (forall s, In s syms <-> symbol_of ditems s) /\ well_ordered (refers_other ditems) syms.
    Proof using Ho Hod Hdm Hdd.
      intros Hs. destruct (ordered_symbols_ok ord dm syms Ho (conn_nodup ordd ditems dm Hdd Hdm) Hs) as (H1 & H2 & H3).
      split; [exact H1|]. split.
      - intros s. rewrite H2. apply (node_items ordd ditems dm Hod Hdm).
      - intros p x q Hq y [Hr Hne]. apply (H3 p x q Hq). split; [|exact Hne]. apply (edge_items ordd ditems dm Hod Hdm); exact Hr.
    Qed.

    (** The dict of the combined model, as a set of equations. *)
    Definition combined (syms vars : list sym) (m0 : model) : dict sym comp :=
      fold_left (add_one dm) (visited dm syms vars) (m_dict m0).

    Lemma with_dependencies_inv m' : with_dependencies ord items dm = Ok m' ->
      exists m0 D, init_model ord items = Ok m0 /\ init_model ord D = Ok m' /\ is_dict D /\
        (forall k c, In (k, c) items -> In (k, c) D) /\
        (forall k c, In (k, c) D -> In (k, c) items \/ (In (k, c) ditems /\ ~ In k (dkeys items))) /\
        (forall k s, refers D k s -> In s (dkeys ditems) -> In s (dkeys D)) /\
        (forall k, In k (dkeys D) -> ~ In k (dkeys items) ->
           exists v syms, In v (m_indep m0) /\ In v (dkeys ditems) /\ ordered_symbols ord dm = Ok syms /\ In k (upto v syms)).
    Proof using Ho Hod Hd Hdd Hdm Hn Hkp.
      unfold with_dependencies. intros Hw. apply bind_Ok in Hw as (m0 & Hm0 & Hw).
      exists m0. destruct (init_model_inv _ _ _ Hm0) as (Hs & H1 & H2 & _).
      assert (Hg0 : forall k, dget (m_dict m0) k = dget items k).
      { intros k. rewrite H1. symmetry. apply dget_perm; [exact Hd|apply sort_items_perm]. }
      assert (Hindep : forall s, In s (m_indep m0) <-> symbol_of items s /\ is_par s = false /\ ~ In s (dkeys items)).
      { apply (in_indep_iff ord items m0 Ho Hd Hm0). }
      assert (Hdpar : forall k c, In (k, c) ditems -> In k (dkeys ditems)).
      { intros k c Hin. change k with (fst (k, c)). apply in_map; exact Hin. }
      destruct (existsb _ _) eqn:He.
      - apply bind_Ok in Hw as (syms & Hsyms & Hw). rewrite walk_fold in Hw.
        set (L := visited dm syms (m_indep m0)) in *.
        exists (fold_left (add_one dm) L (m_dict m0)). split; [exact Hm0|]. split; [exact Hw|].
        assert (Hnd0 : NoDup (dkeys (m_dict m0))).
        { rewrite H1. eapply Permutation_NoDup; [apply Permutation_map, sort_items_perm|exact Hd]. }
        assert (HndD := NoDup_add_list dm L (m_dict m0) Hnd0).
        assert (HgD : forall k, dget (fold_left (add_one dm) L (m_dict m0)) k =
                  match dget items k with Some c => Some c | None => if inb k L then dget ditems k else None end).
        { intros k. rewrite dget_add_list, Hg0, dm_get. reflexivity. }
        set (D := fold_left (add_one dm) L (m_dict m0)) in *.
        destruct (dm_symbols syms Hsyms) as (Hnds & Hin_syms & Hwo).
        assert (HL : forall k, In k L <-> exists v, In v (m_indep m0) /\ In v (dkeys ditems) /\ In k (upto v syms)).
        { intros k. unfold L, visited. rewrite in_flat_map. split.
          - intros (v & Hv & Hk). destruct (dmem (m_dict dm) v) eqn:Hm; [|contradiction]. apply dm_mem in Hm. eauto.
          - intros (v & Hv & Hv2 & Hk). exists v; split; [exact Hv|]. apply dm_mem in Hv2. rewrite Hv2. exact Hk. }
        split; [exact HndD|]. split; [|split; [|split]].
        + intros k c Hin. apply dget_In. rewrite HgD, (In_dget items k c Hd Hin). reflexivity.
        + intros k c Hin. apply (In_dget D k c HndD) in Hin. rewrite HgD in Hin.
          destruct (dget items k) as [c'|] eqn:Hk.
          * inv Hin. left. apply dget_In; exact Hk.
          * right. destruct (inb k L); [|discriminate]. split; [apply dget_In; exact Hin|]. apply dget_None; exact Hk.
        + intros k s (e & Hin & Hm) Hsd.
          apply (In_dget D k _ HndD) in Hin. rewrite HgD in Hin.
          apply dget_keys. rewrite HgD. destruct (dget items s) as [cs|] eqn:Hgs; [discriminate|].
          assert (Hgd : dget ditems s <> None) by (apply dget_keys; exact Hsd).
          replace (inb s L) with true; [exact Hgd|]. symmetry. apply inb_In.
          destruct (dget items k) as [c'|] eqn:Hk.
          * (* referred to by a new component: an independent variable *)
            inv Hin. apply dget_In in Hk. apply HL. exists s.
            assert (Hpar : is_par s = false) by (apply Hkp; exact Hsd).
            repeat split; [|exact Hsd|apply upto_in, Hin_syms; left; exact Hsd].
            apply Hindep. repeat split; [right; exists k, e; auto|exact Hpar|apply dget_None; exact Hgs].
          * destruct (inb k L) eqn:HkL; [|discriminate]. apply inb_In, HL in HkL as (v & Hv & Hvd & Hkv).
            apply HL. exists v. repeat split; auto.
            destruct (eq_dec s k) as [->|Hne]; [exact Hkv|].
            destruct (upto_prefix v syms) as (r & Hr). apply in_split in Hkv as (p & q & Hpq).
            rewrite Hpq. apply in_or_app; left. apply (Hwo p k (q ++ r)).
            { rewrite Hr at 1. rewrite Hpq, <- app_assoc. reflexivity. }
            split; [|exact Hne]. exists e; split; [apply dget_In; exact Hin|exact Hm].
        + intros k Hk Hni. apply dget_keys in Hk. rewrite HgD in Hk. apply dget_None in Hni. rewrite Hni in Hk.
          destruct (inb k L) eqn:HkL; [|congruence]. apply inb_In, HL in HkL as (v & Hv & Hvd & Hkv). exists v, syms; auto.
      - inv Hw. exists items. split; [exact Hm0|]. split; [exact Hm0|]. split; [exact Hd|].
        split; [auto|]. split; [auto|]. split.
        + intros k s (e & Hin & Hm) Hsd. destruct (in_dec eq_dec s (dkeys items)) as [|Hni]; [assumption|]. exfalso.
          assert (Hf : existsb (fun v => dmem (m_dict dm) v) (m_indep m') = true); [|congruence].
          apply existsb_exists. exists s. split; [|apply dm_mem; exact Hsd].
          apply Hindep. repeat split; [right; exists k, e; auto| |exact Hni]. apply Hkp; exact Hsd.
        + intros k Hk Hni; contradiction.
    Qed.

    Lemma in_key {X} (d : dict sym X) k c : In (k, c) d -> In k (dkeys d).
    Proof using. clear. intros Hin. change k with (fst (k, c)). apply in_map; exact Hin. Qed.
    Lemma key_in {X} (d : dict sym X) k : In k (dkeys d) -> exists c, In (k, c) d.
    Proof using. clear. intros Hin. apply in_map_iff in Hin as ([k0 c] & He & Hin). simpl in He; subst. eauto. Qed.

    Section Combined.
      Context (D : dict sym comp).
      Context (HD1 : forall k c, In (k, c) items -> In (k, c) D).
      Context (HD2 : forall k c, In (k, c) D -> In (k, c) items \/ (In (k, c) ditems /\ ~ In k (dkeys items))).
      Context (HD3 : forall k s, refers D k s -> In s (dkeys ditems) -> In s (dkeys D)).

      Lemma D_symbols s : symbol_of D s -> symbol_of (items ++ ditems) s.
      Proof using HD2.
        intros [Hs|(k & e & Hs & Hm)].
        - apply key_in in Hs as (c & Hs). apply HD2 in Hs as [Hs|[Hs _]]; apply in_key in Hs;
            [apply symbol_of_l|apply symbol_of_r]; left; exact Hs.
        - apply HD2 in Hs as [Hs|[Hs _]]; [apply symbol_of_l|apply symbol_of_r]; right; exists k, e; auto.
      Qed.
      Lemma D_distinct : distinct_names D.
      Proof using HD2 Hn. intros s t H1 H2. apply Hn; apply D_symbols; assumption. Qed.
      Lemma D_keys k : In k (dkeys D) -> In k (dkeys items) \/ (In k (dkeys ditems) /\ ~ In k (dkeys items)).
      Proof using HD2. intros Hk. apply key_in in Hk as (c & Hk). apply HD2 in Hk as [Hk|[Hk Hk']]; [left|right; split; auto]; eapply in_key; eauto. Qed.
      Lemma D_keys_l k : In k (dkeys items) -> In k (dkeys D).
      Proof using HD1. intros Hk. apply key_in in Hk as (c & Hk). eapply in_key; apply HD1; exact Hk. Qed.
      Lemma D_no_self : no_self_reference items -> no_self_reference ditems -> no_self_reference D.
      Proof using HD2.
        intros H1 H2 k (e & Hin & Hm). apply HD2 in Hin as [Hin|[Hin _]]; [apply (H1 k)|apply (H2 k)]; exists e; auto.
      Qed.

      (** the values of the combined system *)
      Lemma D_solution inp valD val :
        (forall k s, refers ditems k s -> ~ In s (dkeys items)) ->
        solution A ditems inp valD -> solution A items valD val ->
        solution A D inp (fun s => if inb s (dkeys items) then val s else if inb s (dkeys D) then valD s else inp s).
      Proof using HD1 HD2 HD3.
        intros Hsep [S1 S2] [T1 T2].
        set (v := fun s => if inb s (dkeys items) then val s else if inb s (dkeys D) then valD s else inp s).
        split.
        - intros k e Hin. pose proof Hin as HinD. apply HD2 in Hin as [Hin|[Hin Hni]].
          + unfold v at 1. replace (inb k (dkeys items)) with true by (symmetry; apply inb_In; eapply in_key; eauto).
            rewrite (T1 k e Hin). apply eval_ext. intros s Hs. unfold v.
            destruct (inb s (dkeys items)) eqn:Hi1; [reflexivity|]. apply inb_false in Hi1. rewrite (T2 s Hi1).
            destruct (inb s (dkeys D)) eqn:Hi2; [reflexivity|]. apply inb_false in Hi2. apply S2. intros Hd'.
            apply Hi2. apply (HD3 k s); [exists e; split; [exact HinD|left; exact Hs]|exact Hd'].
          + unfold v at 1. replace (inb k (dkeys items)) with false by (symmetry; apply inb_false; exact Hni).
            replace (inb k (dkeys D)) with true by (symmetry; apply inb_In; eapply in_key; eauto).
            rewrite (S1 k e Hin). apply eval_ext. intros s Hs. unfold v.
            replace (inb s (dkeys items)) with false
              by (symmetry; apply inb_false; apply (Hsep k s); exists e; split; [exact Hin|left; exact Hs]).
            destruct (inb s (dkeys D)) eqn:Hi2; [reflexivity|]. apply inb_false in Hi2. apply S2. intros Hd'.
            apply Hi2. apply (HD3 k s); [exists e; split; [exact HinD|left; exact Hs]|exact Hd'].
        - intros s Hs. unfold v. replace (inb s (dkeys items)) with false.
          + replace (inb s (dkeys D)) with false by (symmetry; apply inb_false; exact Hs). reflexivity.
          + symmetry. apply inb_false. intros Hk. apply Hs, D_keys_l; exact Hk.
      Qed.

      (** no cycle arises when the dependencies do not look back *)
      Lemma D_acyclic :
        (forall k s, refers ditems k s -> ~ In s (dkeys items)) ->
        (forall s, ~ clos_trans sym (refers_other items) s s) ->
        (forall s, ~ clos_trans sym (refers_other ditems) s s) ->
        forall s, ~ clos_trans sym (refers_other D) s s.
      Proof using HD1 HD2.
        intros Hsep Hi1 Hi2.
        assert (Hstep : forall x y, refers_other D x y ->
                  (In x (dkeys items) /\ refers_other items x y) \/ (~ In x (dkeys items) /\ refers_other ditems x y /\ ~ In y (dkeys items))).
        { intros x y [(e & Hin & Hm) Hne]. apply HD2 in Hin as [Hin|[Hin Hni]].
          - left. split; [eapply in_key; eauto|]. split; [exists e; auto|exact Hne].
          - right. split; [exact Hni|]. split; [split; [exists e; auto|exact Hne]|]. apply (Hsep x y). exists e; auto. }
        assert (Hpath : forall x y, clos_trans sym (refers_other D) x y ->
                  (~ In x (dkeys items) -> ~ In y (dkeys items) /\ clos_trans sym (refers_other ditems) x y) /\
                  (In y (dkeys items) -> In x (dkeys items) /\ clos_trans sym (refers_other items) x y)).
        { intros x y Hp. induction Hp as [x y Hs|x y z _ [IH1 IH2] _ [IH3 IH4]].
          - apply Hstep in Hs as [[Hx Hs]|(Hx & Hs & Hy)].
            + split; [contradiction|]. intros _. split; [exact Hx|constructor; exact Hs].
            + split; [|contradiction]. intros _. split; [exact Hy|constructor; exact Hs].
          - split.
            + intros Hx. destruct (IH1 Hx) as [Hy P1]. destruct (IH3 Hy) as [Hz P2]. split; [exact Hz|eapply t_trans; eauto].
            + intros Hz. destruct (IH4 Hz) as [Hy P2]. destruct (IH2 Hy) as [Hx P1]. split; [exact Hx|eapply t_trans; eauto]. }
        intros s Hc. destruct (Hpath s s Hc) as [P1 P2].
        destruct (in_dec eq_dec s (dkeys items)) as [Hs|Hs].
        - apply (Hi1 s), P2; exact Hs.
        - apply (Hi2 s), P1; exact Hs.
      Qed.
    End Combined.

    Lemma init_acyclic o (d : dict sym comp) (m : model) : set_order o -> is_dict d -> init_model o d = Ok m ->
      forall s, ~ clos_trans sym (refers_other d) s s.
    Proof using. clear.
      intros Ho Hd Hi s Hc. destruct (init_model_inv _ _ _ Hi) as (Hs & _).
      assert (init_model o d = Raise CircularDependencyError); [|congruence].
      apply init_model_circular; auto. exists s; exact Hc.
    Qed.

    (** with_dependencies never fails when the new components are themselves a
        model and the dependency model does not refer back to them. *)
    Lemma with_dependencies_succeeds m0 :
      init_model ord items = Ok m0 ->
      (forall k, In k (dkeys items) -> is_par k = false) ->
      (forall k s, refers ditems k s -> ~ In s (dkeys items)) ->
      exists m', with_dependencies ord items dm = Ok m'.
    Proof using Ho Hod Hd Hdd Hdm Hn Hkp.
      intros Hm0 Hkp0 Hsep. unfold with_dependencies. rewrite Hm0. cbn [bind].
      destruct (existsb _ _) eqn:He; [|eauto].
      destruct (init_model_inv _ _ _ Hdm) as (Hsd & _ & H2d & Hcd).
      destruct (classify_inv _ _ _ _ Hcd) as (l0 & mid & top & Ht & _). rewrite <- H2d in Ht.
      destruct (toposort_ordered ord dm _ Ht) as (syms & Hsyms). rewrite Hsyms. cbn [bind]. rewrite walk_fold.
      destruct (init_model_inv _ _ _ Hm0) as (Hs & H1 & H2 & _).
      set (L := visited dm syms (m_indep m0)) in *. set (D := fold_left (add_one dm) L (m_dict m0)).
      assert (Hnd0 : NoDup (dkeys (m_dict m0))).
      { rewrite H1. eapply Permutation_NoDup; [apply Permutation_map, sort_items_perm|exact Hd]. }
      assert (HndD : NoDup (dkeys D)) by (apply NoDup_add_list; exact Hnd0).
      assert (HgD : forall k, dget D k = match dget items k with Some c => Some c | None => if inb k L then dget ditems k else None end).
      { intros k. unfold D. rewrite dget_add_list, dm_get.
        replace (dget (m_dict m0) k) with (dget items k); [reflexivity|]. rewrite H1. apply dget_perm; [exact Hd|apply sort_items_perm]. }
      assert (HD1 : forall k c, In (k, c) items -> In (k, c) D).
      { intros k c Hin. apply dget_In. rewrite HgD, (In_dget items k c Hd Hin). reflexivity. }
      assert (HD2 : forall k c, In (k, c) D -> In (k, c) items \/ (In (k, c) ditems /\ ~ In k (dkeys items))).
      { intros k c Hin. apply (In_dget D k c HndD) in Hin. rewrite HgD in Hin.
        destruct (dget items k) as [c'|] eqn:Hk.
        - inv Hin. left. apply dget_In; exact Hk.
        - right. destruct (inb k L); [|discriminate]. split; [apply dget_In; exact Hin|]. apply dget_None; exact Hk. }
      apply init_model_succeeds; auto.
      - intros k c Hin. apply HD2 in Hin as [Hin|[Hin _]]; [apply (Hs k c Hin)|apply (Hsd k c Hin)].
      - apply (D_distinct D HD2).
      - intros k Hk. destruct (D_keys D HD2 k Hk) as [Hk'|[Hk' _]]; auto.
      - apply (D_acyclic D HD1 HD2 Hsep); [apply (init_acyclic ord items m0)|apply (init_acyclic ordd ditems dm)]; auto.
      - apply existsb_exists in He as (v & Hv & _). apply (in_indep_iff ord items m0 Ho Hd Hm0) in Hv as ([Hk|(k & e & Hin & Hm)] & _ & Hk'); [contradiction|].
        exists k, v. split; [exists e; split; [apply HD1; exact Hin|exact Hm]|]. intros ->. apply Hk'. eapply in_key; eauto.
    Qed.

    (** C12 *)
    Lemma with_dependencies_call ord2 m' inp valD val args kw :
      set_order ord2 ->
      (forall k, In k (dkeys items) -> is_par k = false) ->
      no_self_reference items -> no_self_reference ditems ->
      (forall k s, refers ditems k s -> ~ In s (dkeys items)) ->
      with_dependencies ord items dm = Ok m' ->
      solution A ditems inp valD -> solution A items valD val ->
      supplies (named inp (m_indep m' ++ m_params m')) args kw ->
      exists keys, NoDup keys /\
        (forall k, In k (dkeys items) -> In k keys) /\
        (forall k, In k keys -> In k (dkeys items) \/ In k (dkeys ditems)) /\
        (forall s, In s (m_indep m') -> ~ In s (dkeys items) /\ ~ In s (dkeys ditems)) /\
        call A ord2 m' args kw = Ok {| mo_vars := keys; mo_out := map (fun s => if inb s (dkeys items) then val s else valD s) keys |}.
    Proof using Ho Hod Hd Hdd Hdm Hn Hkp.
      intros Ho2 Hkp0 Hself Hselfd Hsep Hw HsD Hs0 Hsup.
      destruct (with_dependencies_inv m' Hw) as (m0 & D & Hm0 & Hm' & HdD & HD1 & HD2 & HD3 & HD4).
      set (v := fun s => if inb s (dkeys items) then val s else if inb s (dkeys D) then valD s else inp s).
      assert (Hsol : solution A D inp v) by (apply (D_solution D HD1 HD2 HD3); auto).
      exists (sort_by sname (dkeys D)). split; [apply NoDup_sort_by; exact HdD|].
      split; [intros k Hk; apply in_sort_by, (D_keys_l D HD1); exact Hk|].
      split; [intros k Hk; apply in_sort_by in Hk; destruct (D_keys D HD2 k Hk); tauto|].
      split.
      - intros s Hs. apply (in_indep_iff ord D m' Ho HdD Hm') in Hs as (Hsy & Hp & Hk). split.
        + intros Hk'. apply Hk, (D_keys_l D HD1); exact Hk'.
        + intros Hk'. destruct Hsy as [Hsy|(k & Hr)]; [contradiction|]. apply Hk. apply (HD3 k s Hr Hk').
      - rewrite (call_symbolic A ord ord2 D m' inp v args kw); auto.
        + do 2 f_equal. apply map_ext_in. intros s Hs. apply in_sort_by in Hs. unfold v.
          replace (inb s (dkeys D)) with true by (symmetry; apply inb_In; exact Hs). reflexivity.
        + apply (D_distinct D HD2).
        + apply (D_no_self D HD2); auto.
        + intros k Hk. destruct (D_keys D HD2 k Hk) as [Hk'|[Hk' _]]; auto.
    Qed.

    (** *** a constraint with a single, fresh component: it is the dependent one *)
    Lemma wd_top w : dkeys items = [w] ->
      (forall s, symbol_of ditems s -> s <> w) -> (forall k, In k (dkeys items) -> is_par k = false) ->
      forall m', with_dependencies ord items dm = Ok m' -> m_dep m' = [w].
    Proof using Ho Hod Hd Hdd Hdm Hn Hkp.
      intros Hw Hfresh Hkp0 m' Hwd.
      destruct (with_dependencies_inv m' Hwd) as (m0 & D & Hm0 & Hm' & HdD & HD1 & HD2 & HD3 & HD4).
      destruct (layers_of_init ord D m' Ho Hm') as (l0 & mid & top & Ht & _ & _ & Hdep & _).
      assert (Hcn : NoDup (dkeys (m_conn m'))) by (apply (conn_nodup ord D m'); auto).
      pose proof (toposort_ok _ _ Hcn Ht) as (_ & _ & _ & Hne).
      assert (Hall : forall x, In x (m_dep m') -> x = w).
      { intros x Hx. pose proof Hx as Hxt. apply Hdep in Hxt.
        pose proof (in_dep_sound ord D m' Ho HdD Hm' x Hx) as (Hxk & _).
        destruct (eq_dec x w) as [|Hxw]; [assumption|]. exfalso.
        assert (Hni : ~ In x (dkeys items)) by (rewrite Hw; simpl; intuition congruence).
        destruct (HD4 x Hxk Hni) as (v & syms & Hv & Hvd & Hsyms & Hxv).
        assert (Hdcn : NoDup (dkeys (m_conn dm))) by (apply (conn_nodup ordd ditems dm); auto).
        pose proof Hsyms as Hsyms'. unfold ordered_symbols in Hsyms'.
        apply bind_Ok in Hsyms' as (dl & Hdl & Hq). inv Hq.
        set (f := fun l => isort der_key_leb (ord l)) in *.
        assert (Hf : forall l, Permutation (f l) l).
        { intros l. unfold f. rewrite der_isort_perm. apply Ho. }
        pose proof (toposort_depth _ _ Hdcn Hdl) as Sd. pose proof (toposort_depth _ _ Hcn Ht) as Sm.
        destruct (dm_symbols _ Hsyms) as (Hnds & Hins & _).
        assert (Hxd : In x (dkeys ditems)) by (destruct (D_keys D HD2 x Hxk) as [|[]]; [contradiction|assumption]).
        (* v occurs in the component of w *)
        apply (in_indep_iff ord items m0 Ho Hd Hm0) in Hv as (Hvs & Hvp & Hvk).
        destruct Hvs as [Hvs|(k & e & Hin & Hm)]; [contradiction|].
        assert (k = w). { apply in_key in Hin. rewrite Hw in Hin. destruct Hin as [<-|[]]; reflexivity. } subst k.
        assert (HwD : refers D w v) by (exists e; split; [apply HD1; exact Hin|exact Hm]).
        assert (Hvw : v <> w) by (apply Hfresh; left; exact Hvd).
        assert (HvD : In v (dkeys D)) by (apply (HD3 w v HwD Hvd)).
        (* layers in dm *)
        destruct (proj1 (ds_node _ _ Sd x)) as (ix & Hix); [apply (node_items ordd ditems dm Hod Hdm); left; exact Hxd|].
        destruct (proj1 (ds_node _ _ Sd v)) as (iv & Hiv); [apply (node_items ordd ditems dm Hod Hdm); left; exact Hvd|].
        assert (Hle : ix <= iv).
        { destruct (Nat.leb_spec ix iv) as [|Hlt]; [assumption|]. exfalso.
          destruct (upto_prefix v (flat_map f dl)) as (r & Hr).
          assert (Hvin : In v (flat_map f dl)) by (apply Hins; left; exact Hvd).
          destruct (upto_last v _ Hvin) as (pre & Hpre).
          rewrite Hpre in Hr, Hxv.
          assert (Hxv' : x <> v).
          { intros ->. rewrite (at_layer_unique dl ix iv v (ds_nodup _ _ Sd) Hix Hiv) in Hlt. lia. }
          assert (Hxp : In x pre) by (apply in_app_iff in Hxv as [|[|[]]]; [assumption|congruence]).
          apply in_split in Hxp as (p1 & p2 & Hp). subst pre.
          destruct Hix as (Lx & Hx1 & Hx2). destruct Hiv as (Lv & Hv1 & Hv2).
          assert (Hvp1 : In v p1).
          { eapply (layers_before f dl Hf (ds_nodup _ _ Sd) p1 x (p2 ++ [v] ++ r) ix iv Lx Lv v); eauto.
            rewrite Hr. rewrite <- !app_assoc. reflexivity. }
          rewrite Hr in Hnds. rewrite <- !app_assoc in Hnds. simpl in Hnds.
          apply (proj2 (proj2 (NoDup_app_split _ _ Hnds)) v Hvp1). right. apply in_or_app; right; left; reflexivity. }
        (* layers in the combined model *)
        destruct (proj1 (ds_node _ _ Sm x)) as (jx & Hjx); [apply (node_items ord D m' Ho Hm'); left; exact Hxk|].
        destruct (proj1 (ds_node _ _ Sm v)) as (jv & Hjv); [apply (node_items ord D m' Ho Hm'); left; exact HvD|].
        destruct (proj1 (ds_node _ _ Sm w)) as (jw & Hjw).
        { apply (node_items ord D m' Ho Hm'). left. apply (D_keys_l D HD1). rewrite Hw; left; reflexivity. }
        set (P := fun s => symbol_of ditems s /\ symbol_of D s).
        assert (Hkey : forall s, P s -> In s (dkeys ditems) -> In s (dkeys D)).
        { intros s [_ HsD] Hsk. destruct HsD as [|(k & Hk)]; [assumption|]. apply (HD3 k s Hk Hsk). }
        assert (Hcomp : forall s c, P s -> In (s, c) ditems <-> In (s, c) D).
        { intros s c HP. assert (Hsi : ~ In s (dkeys items)).
          { rewrite Hw. intros [<-|[]]. destruct HP as [HP _]. exact (Hfresh _ HP eq_refl). }
          split.
          - intros Hin'. pose proof (Hkey s HP (in_key _ _ _ Hin')) as Hk. apply key_in in Hk as (c' & Hc').
            destruct (HD2 s c' Hc') as [Hbad|[Hok _]]; [exfalso; apply Hsi; eapply in_key; eauto|].
            replace c with c'; [exact Hc'|]. apply (In_dget ditems s c Hdd) in Hin'. apply (In_dget ditems s c' Hdd) in Hok. congruence.
          - intros Hin'. destruct (HD2 s c Hin') as [Hbad|[Hok _]]; [exfalso; apply Hsi; eapply in_key; eauto|exact Hok]. }
        assert (Hsub : forall n i j s, i <= n -> P s -> at_layer dl i s -> at_layer (l0 :: mid ++ [top]) j s -> i = j).
        { apply (depth_subgraph (m_conn dm) dl (m_conn m') (l0 :: mid ++ [top]) P Sd Sm).
          - intros s [Hs1 Hs2]. split; [apply (node_items ordd ditems dm Hod Hdm)|apply (node_items ord D m' Ho Hm')]; assumption.
          - intros s HP y. unfold proper_edge. rewrite (edge_items ordd ditems dm Hod Hdm), (edge_items ord D m' Ho Hm').
            split; intros [(e' & Hin' & Hm'') Hne']; (split; [exists e'; split; [apply (Hcomp s _ HP); exact Hin'|exact Hm'']|exact Hne']).
          - intros s y HP [He' _]. apply (edge_items ordd ditems dm Hod Hdm) in He' as (e' & Hin' & Hm''). split.
            + right. exists s, e'; auto.
            + right. exists s, e'. split; [apply (Hcomp s _ HP); exact Hin'|exact Hm'']. }
        assert (ix = jx) by (apply (Hsub ix ix jx x); auto; split; left; assumption).
        assert (iv = jv) by (apply (Hsub iv iv jv v); auto; split; left; assumption).
        subst jx jv.
        assert (Hpe : proper_edge (m_conn m') w v) by (split; [apply (edge_items ord D m' Ho Hm'); exact HwD|exact Hvw]).
        destruct (ds_below _ _ Sm jw w v Hjw Hpe) as (j & Hj & Hjv').
        assert (j = iv) by (apply (at_layer_unique _ _ _ v (ds_nodup _ _ Sm) Hjv' Hjv)). subst j.
        (* but x is in the top layer *)
        assert (Htop : ix = S (length mid)).
        { apply (at_layer_unique _ _ _ x (ds_nodup _ _ Sm) Hjx). exists top. split; [|exact Hxt].
          simpl. rewrite nth_error_app2 by lia. rewrite Nat.sub_diag. reflexivity. }
        destruct Hjw as (Lw & Hw1 & _).
        assert (jw < length (l0 :: mid ++ [top])) by (apply nth_error_Some; congruence).
        simpl in H. rewrite app_length in H. simpl in H. lia. }
      pose proof (lists_nodup ord D m' Ho HdD Hm') as (_ & _ & Hnd & _).
      destruct (m_dep m') as [|x [|y l]] eqn:Hl.
      - exfalso. apply (Hne top); [right; apply in_or_app; right; left; reflexivity|].
        destruct top as [|z top]; [reflexivity|]. exfalso. apply (Hdep z). left; reflexivity.
      - f_equal. apply Hall. left; reflexivity.
      - exfalso. inv Hnd. apply H1. left. rewrite (Hall x), (Hall y); simpl; auto.
    Qed.
  End WithDeps.
End ConstraintFacts.
