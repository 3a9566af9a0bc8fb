(** * ArrObj: the model interface an objective sees, for a symbolic model. *)
From Coq Require Import Reals Relations Lra Lia.
From Coquelicot Require Import Coquelicot.
From Verif Require Import PyBase PyFacts Toposort ToposortFacts Signature SignatureFacts Expr Model ModelSpec ModelFacts CallFacts InitFacts ConstraintFacts AsConstraint ModelMisc ExprR Jacobian JacFacts JacAnalysis JacSecond JacLemmas Cast NumPy NumFacts Objective ObjSpec ObjFacts ObjLS ObjDiff ObjMore ObjLL ObjVec ObjCommon ObjExample ArrModel ArrSpec ArrFacts ArrCall.
Local Open Scope R_scope.

Lemma dkeys_comps {V} es : dkeys (comps (V:=V) es) = dkeys es.
Proof. unfold dkeys, comps. rewrite map_map. reflexivity. Qed.
Lemma in_comps {V} es k e : In (k, CExpr (V:=V) e) (comps es) <-> In (k, e) es.
Proof.
  unfold comps. rewrite in_map_iff. split.
  - intros ([k' e'] & Hq & Hin). simpl in Hq. inv Hq. exact Hin.
  - intros Hin. exists (k, e). auto.
Qed.
Lemma dget_named {V} (f : sym -> V) L s : NoDup (map sname L) -> In s L -> dget (named f L) (sname s) = Some (f s).
Proof.
  intros Hnd Hs. apply In_dget; [unfold dkeys, named; rewrite map_map; exact Hnd|]. unfold named.
  apply (in_map (fun s => (sname s, f s))); exact Hs.
Qed.
Lemma dget_named_none {V} (f : sym -> V) L n : ~ In n (map sname L) -> dget (named f L) n = None.
Proof. intros Hn. apply dget_None. unfold dkeys, named. rewrite map_map. exact Hn. Qed.

Lemma shapes_grid G a : on_grid G (shp a) -> (shp (atleast_1d a) = [1%nat] /\ shp a = []) \/ (List.length (shp (atleast_1d a)) = List.length G /\ shp (atleast_1d a) = shp a).
Proof. intros [Hf [H|H]]; unfold atleast_1d; destruct (shp a) eqn:E; unfold newaxis; cbn [shp]; rewrite ?E; auto; try discriminate. Qed.
Lemma at_point_grid G a y i : on_grid G (shp a) -> shp y = G -> at_point (atleast_1d a) y i = elem a i.
Proof.
  intros Hg Hy. unfold at_point. destruct (shapes_grid G a Hg) as [[E1 E2]|[E1 E2]].
  - rewrite elem_atleast_1d. unfold elem. rewrite E2. reflexivity.
  - rewrite Hy, E1, Nat.sub_diag. cbn [skipn]. apply elem_atleast_1d.
Qed.
Lemma stretches_grid G a y : G <> [] -> on_grid G (shp a) -> shp y = G -> stretches (atleast_1d a) y.
Proof.
  intros Hne Hg Hy. unfold stretches. rewrite Hy. destruct (shapes_grid G a Hg) as [[E1 E2]|[E1 E2]].
  - rewrite E1. destruct G as [|g G'] eqn:EG; [congruence|]. cbn [List.length]. rewrite Nat.sub_succ, Nat.sub_0_r, <- repeat_cons.
    assert (H : forall n l, (n <= List.length l)%nat -> fits (repeat 1%nat n) l = true).
    { induction n as [|n IH]; intros [|x l'] Hl; simpl in *; try reflexivity; try lia. rewrite orb_true_r. apply IH. lia. }
    apply (H (S (List.length G'))). simpl. lia.
  - rewrite E2. destruct Hg as [Hf _]. rewrite <- E1, E2, Nat.sub_diag. exact Hf.
Qed.

Lemma clip_in G s i : ~ In 0%nat G -> fits s G = true -> In i (indices s) -> In (bidx G i) (indices G).
Proof.
  intros H0 Hf Hi. apply in_indices. apply in_indices in Hi. revert s i Hf Hi. induction G as [|g G' IH]; intros s i Hf Hi; simpl; [constructor|].
  assert (H0' : ~ In 0%nat G') by (intros H; apply H0; right; exact H). assert (Hg : g <> 0%nat) by (intros ->; apply H0; left; reflexivity).
  destruct s as [|d s]; inversion Hi as [|j d' i' s' Hj Hi' E1 E2]; subst.
  - constructor; [lia|]. apply (IH H0' [] []); constructor.
  - apply fits_cons in Hf as [Hd Hf]. constructor; [|apply (IH H0' s i' Hf Hi')]. destruct (Nat.eqb_spec g 1); lia.
Qed.
Lemma clip_in1 G i : ~ In 0%nat G -> In i (indices [1%nat]) -> In (bidx G i) (indices G).
Proof.
  intros H0 Hi. destruct G as [|g G']; [left; reflexivity|]. apply (clip_in (g :: G') [1%nat]); [exact H0| |exact Hi].
  simpl. rewrite orb_true_r. reflexivity.
Qed.
Lemma clip_component G a i : ~ In 0%nat G -> on_grid G (shp a) -> In i (indices (shp (atleast_1d a))) -> In (bidx G i) (indices G).
Proof.
  intros H0 Hg Hi. destruct (shapes_grid G a Hg) as [[E1 E2]|[E1 E2]].
  - rewrite E1 in Hi. apply clip_in1; assumption.
  - rewrite E2 in Hi. apply (clip_in G (shp a)); [exact H0|apply Hg|exact Hi].
Qed.
Lemma combine_set_nth (ks : list sym) : forall xs j t n k, NoDup ks -> nth_error ks j = Some k -> (j < List.length xs)%nat ->
  dget (combine ks (set_nth xs j t)) n = if eq_dec n k then Some t else dget (combine ks xs) n.
Proof.
  induction ks as [|a ks IH]; intros xs j t n k Hnd Hk Hj; [destruct j; discriminate|]. inv Hnd.
  destruct xs as [|x xs]; [simpl in Hj; lia|]. destruct j as [|j]; simpl in *.
  - inv Hk. destruct (eq_dec n k); reflexivity.
  - rewrite (IH xs j t n k) by (auto; lia). destruct (eq_dec n a) as [->|]; [|reflexivity].
    destruct (eq_dec a k) as [->|]; [|reflexivity]. exfalso. apply H1. eapply nth_error_In; exact Hk.
Qed.
Lemma set_nth_length xs j t : List.length (set_nth xs j t) = List.length xs.
Proof. revert j. induction xs as [|x xs IH]; intros [|j]; simpl; auto. Qed.

Lemma apart_self ord1 es m X : model_of ord1 es m -> above (comps (V:=res nd) es) X -> distinct_names X -> forall k p, In k (dkeys X) -> In p (m_params m) -> sname k <> sname p.
Proof.
  intros Hm AX HnX k p Hk Hpp He.
  assert (Hd : is_dict (comps (V:=res nd) es)) by (unfold is_dict; rewrite dkeys_comps; apply Hm).
  assert (Hplain : plain_model (comps (V:=res nd) es)) by (rewrite <- (icast_comps (V:=R)); apply plain_icast, Hm).
  apply (in_params_iff ord1 (comps es) m (proj1 Hm) Hd) in Hpp as (Hsp & Hpar & _); [|apply Hm].
  assert (k = p). { apply HnX; [left; exact Hk| |exact He]. apply (above_symbols _ (proj1 Hplain) (proj2 Hplain) X AX); [destruct p; auto; discriminate|exact Hsp]. }
  subst k. rewrite (above_nonpar _ (proj1 Hplain) X AX p Hk) in Hpar. discriminate.
Qed.
Lemma built_self ord1 es m : model_of ord1 es m -> built ord1 es m m.
Proof.
  intros Hm. assert (Hd : is_dict (comps (V:=res nd) es)) by (unfold is_dict; rewrite dkeys_comps; apply Hm).
  assert (Hi : init_model ord1 (comps es) = Ok m) by apply Hm.
  assert (Hn : distinct_names (comps (V:=res nd) es)) by (rewrite <- (icast_comps (V:=R)); apply distinct_icast, Hm).
  assert (Hplain : plain_model (comps (V:=res nd) es)) by (rewrite <- (icast_comps (V:=R)); apply plain_icast, Hm).
  split; [exact Hm|]. split; [exact (set_params_self ord1 _ m Hi)|]. split; [apply (lists_nodup ord1 _ m (proj1 Hm) Hd Hi)|].
  split; [auto|]. split; [intros p Hp; apply (in_params_iff ord1 _ m (proj1 Hm) Hd Hi) in Hp; tauto|].
  intros k p Hk Hp. apply (apart_self ord1 es m (comps es) Hm (above_items ord1 _ m Hd Hplain Hi) Hn k p); [rewrite dkeys_comps; exact Hk|exact Hp].
Qed.

Section Obj.
  Context (simp : expr -> expr) (ord1 ord2 : list sym -> list sym) (es : dict sym expr) (m0 m : amodel).
  Hypothesis Hsimp : simp_ok simp.
  Hypothesis Ho2 : set_order ord2.
  Hypothesis Hm : built ord1 es m0 m.
  Context (sol : (sym -> R) -> sym -> R).
  Hypothesis Hsol : means es sol.
  Context (h : heap) (data : dict sym (option nd)) (G : list nat) (cls : mclass).
  Hypothesis Hgrid : independent_on_grid G m data.

  Notation items := (comps (V:=res nd) es).
  Notation itemsR := (comps (V:=R) es).
  Notation ps := (m_params m).
  Notation om := (om_of cls simp ord2 m).
  Let Hm0 : model_of ord1 es m0 := proj1 Hm.
  Let Ho1 : set_order ord1 := proj1 Hm0.
  Lemma Hd : is_dict items. Proof using Hm. unfold is_dict. rewrite dkeys_comps. apply Hm0. Qed.
  Lemma HdR : is_dict itemsR. Proof using Hm. unfold is_dict. rewrite dkeys_comps. apply Hm0. Qed.
  Lemma HnR : distinct_names itemsR. Proof using Hm. apply Hm0. Qed.
  Lemma HselfR : no_self_reference itemsR. Proof using Hm. apply Hm0. Qed.
  Lemma HplainR : plain_model itemsR. Proof using Hm. apply Hm0. Qed.
  Lemma back : items = icast itemsR. Proof. symmetry. apply icast_comps. Qed.
  Lemma forth : itemsR = icast items. Proof. symmetry. apply icast_comps. Qed.
  Lemma Hn : distinct_names items. Proof using Hm. rewrite back. apply distinct_icast, HnR. Qed.
  Lemma Hself : no_self_reference items. Proof using Hm. rewrite back. apply noself_icast, HselfR. Qed.
  Lemma Hplain : plain_model items. Proof using Hm. rewrite back. apply plain_icast, HplainR. Qed.
  Lemma Hpow : forall k e, In (k, CExpr (V:=res nd) e) items -> proper_powers e.
  Proof using Hm. intros k e Hin. apply (proj2 (in_comps es k e)) in Hin || apply in_comps in Hin. apply (proj1 (proj2 (proj2 (proj2 (proj2 (proj2 Hm0))))) k e Hin). Qed.
  Lemma Hi : init_model ord1 items = Ok m0. Proof using Hm. apply Hm0. Qed.
  Lemma HiR : init_model ord1 itemsR = Ok (mcast m0). Proof using Hm. rewrite forth. apply init_icast, Hi. Qed.
  Lemma Hp : set_params m0 ps = Ok m. Proof using Hm. apply Hm. Qed.
  Lemma Hsub : forall p, In p (m_params m0) -> In p ps. Proof using Hm. apply Hm. Qed.
  Lemma fields : m_indep m = m_indep m0 /\ m_dep m = m_dep m0.
  Proof using Hm. pose proof Hp as H. unfold set_params in H. apply bind_Ok in H as (sg & _ & Hq). inv Hq. auto. Qed.
  Lemma HpR : set_params (mcast (W:=R) m0) ps = Ok (mcast m). Proof using Hm. apply set_params_mcast, Hp. Qed.
  Lemma Hps : forall p, In p ps -> is_par p = true.
  Proof using Hm. apply Hm. Qed.
  Lemma indep_nonpar v : In v (m_indep m) -> is_par v = false.
  Proof using Hm. intros Hq. rewrite (proj1 fields) in Hq. apply (in_indep_iff ord1 items m0 Ho1 Hd Hi) in Hq. tauto. Qed.

  Lemma apart_items : forall k p, In k (dkeys items) -> In p ps -> sname k <> sname p.
  Proof using Hm. intros k p Hk. rewrite dkeys_comps in Hk. exact (proj2 (proj2 (proj2 (proj2 (proj2 Hm)))) k p Hk). Qed.
  Lemma signature_is : make_signature (m_indep m) ps = Ok (m_sig m).
  Proof using Hm. rewrite (proj1 fields). pose proof Hp as H. unfold set_params in H. apply bind_Ok in H as (sg & Hs & Hq). rewrite Hs. inv Hq. rewrite <- H0. reflexivity. Qed.
  Lemma names_nodup : NoDup (map sname (m_indep m ++ ps)).
  Proof using Hm. pose proof signature_is as H. apply make_signature_ok in H as [_ Hnd]. exact Hnd. Qed.
  Lemma om_interface : interface om.
  Proof using Hm.
    pose proof signature_is as Hsig. apply make_signature_ok in Hsig as [Hsig Hnd]. destruct (lists_nodup ord1 items m0 Ho1 Hd Hi) as (_ & _ & N3 & _). rewrite <- (proj2 fields) in N3.
    split; [|split; [exact Hnd|exact N3]]. simpl. rewrite Hsig. unfold required. rewrite map_map. simpl. rewrite map_map. apply map_ext. reflexivity.
  Qed.
  Lemma om_dep_names : NoDup (map sname (om_dep om)).
  Proof using Hm.
    simpl. destruct (lists_nodup ord1 items m0 Ho1 Hd Hi) as (_ & _ & N3 & _). rewrite (proj2 fields).
    assert (H : forall s, In s (m_dep m0) -> symbol_of items s) by (intros s Hs; left; apply (in_dep_sound ord1 items m0 Ho1 Hd Hi s Hs)).
    induction N3 as [|s l Hs N IH]; simpl; constructor.
    - intros Hq. apply in_map_iff in Hq as (t & Et & Ht). apply Hs. assert (t = s) by (apply Hn; [apply H; right; exact Ht|apply H; left; reflexivity|exact Et]). subst; exact Ht.
    - apply IH. intros t Ht. apply H; right; exact Ht.
  Qed.
  Lemma alpha_filter {A} (key : A -> string) (f : A -> bool) l : alphabetical key l -> alphabetical key (filter f l).
  Proof using.
    unfold alphabetical. induction 1 as [|x l Hl IH Hx]; simpl; [constructor|]. destruct (f x); [|exact IH]. constructor; [exact IH|].
    apply Forall_forall. intros y Hy. apply filter_In in Hy as [Hy _]. apply (proj1 (Forall_forall _ _) Hx y Hy).
  Qed.
  Lemma om_lists (o : dict sym nd) : Permutation (dkeys o) (dkeys items) -> alphabetical sname (dkeys o) -> lists_dependent om o.
  Proof using Hm.
    intros Hperm Halpha. unfold lists_dependent. simpl om_dep.
    rewrite (proj2 fields). destruct (lists_nodup ord1 items m0 Ho1 Hd Hi) as (_ & _ & N3 & _). destruct (lists_sorted ord1 items m0 Hi) as (_ & _ & S3 & _).
    assert (Hndo : NoDup (dkeys o)) by (eapply Permutation_NoDup; [apply Permutation_sym; exact Hperm|exact Hd]).
    apply (alphabetical_unique sname).
    - intros a b Ha Hb. apply filter_In in Ha as [Ha _]. apply filter_In in Hb as [Hb _]. apply Hn; left; eapply Permutation_in; eassumption.
    - apply NoDup_Permutation; [apply NoDup_filter; exact Hndo|exact N3|]. intros s. rewrite filter_In, inb_In. split; [tauto|]. intros Hs. split; [|exact Hs].
      eapply Permutation_in; [apply Permutation_sym; exact Hperm|]. apply (in_dep_sound ord1 items m0 Ho1 Hd Hi s Hs).
    - apply alpha_filter; exact Halpha.
    - exact S3.
  Qed.
  Lemma om_lists_value o : dkeys o = sort_by sname (dkeys items) -> lists_dependent om o.
  Proof using Hm. intros E. apply om_lists; rewrite E; [apply Permutation_sym, sort_by_perm|apply sort_by_sorted]. Qed.
  Lemma om_lists_jac o : dkeys o = dkeys (m_dict m) -> lists_dependent om o.
  Proof using Hm.
    intros E. apply om_lists; rewrite E; [|destruct (set_params_fields m0 m ps Hp) as (-> & _); apply (lists_sorted ord1 items m0 Hi)].
    unfold dkeys. apply Permutation_map, Permutation_sym. apply (m_dict_perm ord1 items m0 m ps Hi Hp).
  Qed.

  (** ** the inputs *)
  Notation inp xs := (inputs h ps data xs).
  Notation names := (m_indep m ++ ps).
  Lemma names_nodup_keys f : NoDup (dkeys (named (V:=nd) f names)).
  Proof using Hm. unfold dkeys, named. rewrite map_map. apply names_nodup. Qed.
  Lemma given : independent_data_given om data.
  Proof using Hgrid. intros v Hv. destruct (proj2 Hgrid v Hv) as (a & Ha & _). eauto. Qed.
  Lemma inp_indep xs v a : In v (m_indep m) -> dget data v = Some (Some a) -> inp xs v = a.
  Proof using Hm. intros Hv Ha. unfold inputs. rewrite (indep_nonpar v Hv). unfold observed. rewrite Ha. reflexivity. Qed.
  Lemma inp_par xs p : In p ps -> inp xs p = scalar (parameter_value h ps xs p).
  Proof using Hm. intros Hpp. unfold inputs. rewrite (Hps p Hpp). reflexivity. Qed.
  Lemma inp_ok xs : inputs_ok m G (inp xs).
  Proof using Hm Hgrid.
    intros s Hs. apply in_app_or in Hs as [Hs|Hs].
    - destruct (proj2 Hgrid s Hs) as (a & Ha & Hg). rewrite (inp_indep xs s a Hs Ha). exact Hg.
    - rewrite (inp_par xs s Hs). apply on_grid_nil.
  Qed.
  Lemma NoDup_ps : NoDup ps. Proof using Hm. apply Hm. Qed.

  Lemma seen_inputs xs : full_vector h m xs -> forall n, seen h om data xs [] n = dget (named (inp xs) names) n.
  Proof using Hm Hgrid.
    intros Hlen n. destruct (seen_spec h om data xs [] om_interface) as [S1 S2].
    destruct (in_dec string_dec n (map sname names)) as [Hin|Hin].
    - apply in_map_iff in Hin as (s & <- & Hs). rewrite (dget_named _ _ _ names_nodup Hs). apply in_app_or in Hs as [Hs|Hs].
      + destruct (proj2 Hgrid s Hs) as (a & Ha & _). rewrite (S2 s Hs). unfold observed. rewrite Ha. rewrite (inp_indep xs s a Hs Ha). reflexivity.
      + rewrite (inp_par xs s Hs). unfold parameter_value. destruct (p_fixed (h s)) eqn:Hf.
        * apply (seen_fixed h om data xs [] s om_interface Hs Hf).
        * assert (Hfr : In s (filter (fun q => negb (p_fixed (h q))) ps)) by (apply filter_In; rewrite Hf; auto).
          destruct (In_nth_error _ _ Hfr) as (j & Hj).
          assert (Hx : exists x, nth_error xs j = Some x).
          { destruct (nth_error xs j) as [x|] eqn:E; [eauto|]. apply nth_error_None in E. rewrite Hlen in E.
            assert (j < List.length (filter (fun q => negb (p_fixed (h q))) ps))%nat by (apply nth_error_Some; congruence). lia. }
          destruct Hx as (x & Hx). rewrite (S1 j s x Hj Hx).
          rewrite (PyFacts.dget_combine_nth _ _ j s x); [reflexivity|apply NoDup_filter, NoDup_ps|exact Hj|exact Hx].
    - rewrite dget_named_none by exact Hin. unfold seen. simpl om_indep. simpl om_params.
      rewrite map_app in Hin.
      assert (E1 : find (fun v => eqb (sname v) n) (m_indep m) = None).
      { destruct (find _ (m_indep m)) as [v|] eqn:E; [|reflexivity]. apply find_some in E as [E1 E2]. apply (proj1 (eqb_true _ _)) in E2. exfalso. apply Hin, in_or_app. left. rewrite <- E2. apply in_map; exact E1. }
      rewrite E1.
      assert (E2 : find (fun p => eqb (sname p) n && p_fixed (h p)) ps = None).
      { destruct (find _ ps) as [v|] eqn:E; [|reflexivity]. apply find_some in E as [E3 E2]. apply andb_prop in E2 as [E2 _]. apply (proj1 (eqb_true _ _)) in E2. exfalso. apply Hin, in_or_app. right. rewrite <- E2. apply in_map; exact E3. }
      rewrite E2.
      assert (E3 : dget (combine (map sname (filter (fun p => negb (p_fixed (h p))) ps)) xs) n = None).
      { apply dget_None. intros Hq. apply in_combine_keys in Hq. apply in_map_iff in Hq as (p & Ep & Hq). apply filter_In in Hq as [Hq _]. apply Hin, in_or_app. right. rewrite <- Ep. apply in_map; exact Hq. }
      rewrite E3. reflexivity.
  Qed.
  Lemma args_inputs xs : full_vector h m xs -> arguments_are (named (inp xs) names) (seen h om data xs []).
  Proof using Hm Hgrid. intros Hl. split; [apply names_nodup_keys|]. intros n. symmetry. apply seen_inputs; exact Hl. Qed.
  Lemma calls_args f xs o d : full_vector h m xs -> calls m f (inp xs) o -> arguments_are d (seen h om data xs []) -> f d = Ok o.
  Proof using Hm Hgrid. intros Hl Hc [_ Hd']. apply Hc. intros n. rewrite Hd'. apply seen_inputs; exact Hl. Qed.

  (** ** values *)
  Lemma HsolN : solves_for items sol.
  Proof using Hsol. intros i. rewrite <- forth. apply Hsol. Qed.
  Lemma value_exists xs : exists o, value_spec ord2 items m G sol (inp xs) o.
  Proof using Hm Hgrid Hsol Ho2.
    apply (arr_value ord1 ord2 items m0 m ps Ho1 Ho2 Hd Hself Hplain Hpow Hi Hp Hsub G sol (inp xs) HsolN Hn); [|apply inp_ok].
    exact apart_items.
  Qed.
  Lemma value_answer xs o : full_vector h m xs -> value_spec ord2 items m G sol (inp xs) o -> value_at h om data xs [] o.
  Proof using Hm Hgrid.
    intros Hl Hv. exists (named (inp xs) names). split; [apply args_inputs; exact Hl|]. split; [|apply om_lists_value, Hv].
    apply (proj1 Hv). reflexivity.
  Qed.

  (** [j]-th free parameter *)
  Definition free_at (p : sym) (j : nat) : Prop := nth_error (filter (fun q => negb (p_fixed (h q))) ps) j = Some p.
  Lemma free_facts p j : free_at p j -> In p ps /\ p_fixed (h p) = false.
  Proof using. intros Hf. apply nth_error_In, filter_In in Hf as [H1 H2]. apply negb_true_iff in H2. auto. Qed.
  Lemma pv_set xs p j t q : free_at p j -> (j < List.length xs)%nat ->
    parameter_value h ps (set_nth xs j t) q = if eq_dec q p then t else parameter_value h ps xs q.
  Proof using Hm.
    intros Hf Hj. unfold parameter_value. rewrite (combine_set_nth _ xs j t q p) by (try exact Hf; try exact Hj; apply NoDup_filter, NoDup_ps).
    destruct (p_fixed (h q)) eqn:E; destruct (eq_dec q p) as [->|]; try reflexivity. destruct (free_facts p j Hf) as [_ Hf']. congruence.
  Qed.
  Lemma pv_at xs p j : free_at p j -> (j < List.length xs)%nat -> parameter_value h ps xs p = nth j xs 0.
  Proof using Hm.
    intros Hf Hj. unfold parameter_value. rewrite (proj2 (free_facts p j Hf)).
    rewrite (PyFacts.dget_combine_nth _ _ j p (nth j xs 0)); [reflexivity|apply NoDup_filter, NoDup_ps|exact Hf|apply nth_error_nth'; exact Hj].
  Qed.
  Lemma at_set xs p j t i s : free_at p j -> (j < List.length xs)%nat ->
    at_index (inp (set_nth xs j t)) i s = set_input (at_index (inp xs) i) p t s.
  Proof using Hm.
    intros Hf Hj. unfold at_index, inputs, set_input. destruct (is_par s) eqn:E.
    - rewrite !elem_scalar, (pv_set xs p j t s Hf Hj). destruct (eq_dec s p); reflexivity.
    - destruct (eq_dec s p) as [->|]; [|reflexivity]. rewrite (Hps p (proj1 (free_facts p j Hf))) in E. discriminate.
  Qed.
  Lemma at_par xs p j i : free_at p j -> (j < List.length xs)%nat -> at_index (inp xs) i p = nth j xs 0.
  Proof using Hm.
    intros Hf Hj. unfold at_index. rewrite (inp_par xs p (proj1 (free_facts p j Hf))), elem_scalar. apply pv_at; assumption.
  Qed.
  (** an index may be clipped to the grid *)
  Lemma at_clip xs i s : In s names -> at_index (inp xs) (bidx G i) s = at_index (inp xs) i s.
  Proof using Hm Hgrid. intros Hs. unfold at_index. apply elem_bidx. apply (inp_ok xs s Hs). Qed.

  (** solutions depend on the inputs of the model only *)
  Lemma solves_ext {V} (A : alg V) ordx (X : dict sym (comp (V:=V))) xm i1 i2 v1 v2 : set_order ordx -> is_dict X -> no_self_reference X -> init_model ordx X = Ok xm ->
    solution A X i1 v1 -> solution A X i2 v2 -> (forall s, symbol_of X s -> ~ In s (dkeys X) -> i1 s = i2 s) -> forall s, symbol_of X s -> v1 s = v2 s.
  Proof using.
    intros Hox Hdx Hsx Hix [S1 S2] [T1 T2] He. apply (model_ind ordx X xm Hox Hdx Hsx Hix). intros s Hs IH.
    destruct (in_dec eq_dec s (dkeys X)) as [Hk|Hk]; [|rewrite S2, T2 by exact Hk; apply He; assumption].
    apply in_map_iff in Hk as ([k c] & Hq & Hin). simpl in Hq; subst k. destruct (proj1 (init_model_inv _ _ _ Hix) s c Hin) as (e & ->).
    rewrite (S1 _ _ Hin), (T1 _ _ Hin). apply eval_ext. intros t Ht. apply IH. exists e. split; [exact Hin|left; exact Ht].
  Qed.
  Lemma input_name X s : above items X -> symbol_of X s -> ~ In s (dkeys X) -> In s names.
  Proof using Hm. exact (input_symbol ord1 items m0 m ps Ho1 Hd Hplain Hi Hp Hsub X s). Qed.
  Lemma solX_ext X solX i1 i2 : above items X -> distinct_names X -> solves_for X solX ->
    (forall s, In s names -> i1 s = i2 s) -> forall s, symbol_of X s -> solX i1 s = solX i2 s.
  Proof using Hm.
    intros AX HnX HsX He s Hs.
    destruct (above_init ord1 items m0 Ho1 Hd Hself (proj1 Hplain) Hi X AX HnX ord1 Ho1) as (xm & Hx).
    apply (solves_ext Ralg ord1 (icast X) (mcast xm) i1 i2 (solX i1) (solX i2) Ho1 (is_dict_icast X (ab_dict _ _ AX)) (noself_icast X (above_self items Hself X AX)) (init_icast ord1 X xm Hx) (HsX i1) (HsX i2)).
    - intros t Ht Hk. apply He. apply (input_name X t AX); [apply (proj1 (symbol_of_icast (W:=R) X t)); exact Ht|rewrite dkeys_icast in Hk; exact Hk].
    - apply (proj2 (symbol_of_icast (W:=R) X s)). exact Hs.
  Qed.
  Lemma above_it : above items items. Proof using Hm. exact (above_items ord1 items m0 Hd Hplain Hi). Qed.
  Lemma predicted_clip xs v i : In v (dkeys items) -> predicted sol h ps data xs v (bidx G i) = predicted sol h ps data xs v i.
  Proof using Hm Hgrid Hsol.
    intros Hv. unfold predicted. apply (solX_ext items sol _ _ above_it Hn HsolN); [intros s Hs; apply at_clip; exact Hs|left; exact Hv].
  Qed.

  (** ** least squares: value *)
  Lemma dep_key v : In v (m_dep m) -> In v (dkeys items).
  Proof using Hm. intros Hv. rewrite (proj2 fields) in Hv. apply (in_dep_sound ord1 items m0 Ho1 Hd Hi v Hv). Qed.
  Lemma om_created b ob : obj_init b om data = Ok ob -> created b om data ob [].
  Proof using Hm Hgrid.
    intros Hob. split; [exact om_interface|]. split; [apply om_of_by_keyword|]. split; [exact om_dep_names|]. split; [exact Hob|]. split; [constructor|exact given].
  Qed.
  Lemma value_entry xs o v : value_spec ord2 items m G sol (inp xs) o -> In v (dkeys items) ->
    exists a, entry o v = atleast_1d a /\ on_grid G (shp a) /\ (forall i, elem a i = predicted sol h ps data xs v i) /\
      forall s, refers items v s -> ~ In s (dkeys items) -> fits (shp (inp xs s)) (shp a) = true.
  Proof using.
    intros (_ & _ & w & _ & Hv) Hk. destruct (Hv v Hk) as (a & _ & Ea & Hg & He & Hf). exists a. unfold entry. rewrite Ea. auto.
  Qed.
  Lemma value_at_point xs o v y i : value_spec ord2 items m G sol (inp xs) o -> In v (dkeys items) -> shp y = G ->
    at_point (entry o v) y i = predicted sol h ps data xs v i.
  Proof using. intros Hv Hk Hy. destruct (value_entry xs o v Hv Hk) as (a & -> & Hg & He & _). rewrite (at_point_grid G a y i Hg Hy). apply He. Qed.
  Lemma value_val xs o v i : value_spec ord2 items m G sol (inp xs) o -> In v (dkeys items) -> In i (indices (shp (entry o v))) ->
    val (entry o v) i = predicted sol h ps data xs v i /\ In (bidx G i) (indices G).
  Proof using Hgrid.
    intros Hv Hk Hin. destruct (value_entry xs o v Hv Hk) as (a & Ea & Hg & He & _). rewrite Ea in *. split.
    - rewrite <- elem_val by exact Hin. rewrite elem_atleast_1d. apply He.
    - apply (clip_component G a i (proj1 Hgrid) Hg Hin).
  Qed.
  Lemma value_fits xs o : dependent_on_grid G m data -> value_spec ord2 items m G sol (inp xs) o -> fits_data om data o.
  Proof using Hm.
    intros [Hne Hdep] Hv v y Hvd Hy. destruct (Hdep v y Hvd Hy) as (Es & s & Hs & Hf & Hnz). split.
    - destruct (value_entry xs o v Hv (dep_key v Hvd)) as (a & -> & Hg & _). apply (stretches_grid G); assumption.
    - exists s. rewrite Es. auto.
  Qed.
  Lemma half_chi2_predicted xs o : dependent_on_grid G m data -> value_spec ord2 items m G sol (inp xs) o ->
    half_chi2 data o (om_dep om) = half_chi2_at sol h m data xs.
  Proof using Hm.
    intros [Hne Hdep] Hv. unfold half_chi2, half_chi2_at. f_equal. apply Rsum_ext. intros v Hvd. unfold chi2_of.
    destruct (observed data v) as [y|] eqn:Ey; [|reflexivity]. destruct (Hdep v y Hvd Ey) as (Es & s & -> & _).
    apply Rsum_ext. intros i _. rewrite (value_at_point xs o v y i Hv (dep_key v Hvd) Es). reflexivity.
  Qed.
  Lemma model_ls_value ob xs : obj_init false om data = Ok ob -> dependent_on_grid G m data -> full_vector h m xs ->
    ls_call true h om ob xs [] = Ok (half_chi2_at sol h m data xs).
  Proof using Hm Hgrid Hsol Ho2.
    intros Hob Hdep Hl. destruct (value_exists xs) as (o & Hv).
    destruct (ls_value_spec h om data ob [] xs o (om_created false ob Hob) (value_answer xs o Hl Hv) (value_fits xs o Hdep Hv)) as (H & _).
    rewrite H, (half_chi2_predicted xs o Hdep Hv). reflexivity.
  Qed.

  (** ** first derivatives *)
  Definition out_at xs : dict sym nd := match arr_call ord2 m (named (inp xs) names) with Ok o => o | Raise _ => [] end.
  Lemma out_spec xs : value_spec ord2 items m G sol (inp xs) (out_at xs).
  Proof using Hm Hgrid Hsol Ho2.
    destruct (value_exists xs) as (o & Hv). unfold out_at. rewrite (proj1 Hv) by reflexivity. exact Hv.
  Qed.
  Lemma out_unique xs o : value_spec ord2 items m G sol (inp xs) o -> o = out_at xs.
  Proof using. intros Hv. unfold out_at. rewrite (proj1 Hv) by reflexivity. reflexivity. Qed.
  Lemma inp_shapes xs xs' s : shp (inp xs s) = shp (inp xs' s).
  Proof using. unfold inputs. destruct (is_par s); reflexivity. Qed.
  Lemma out_shapes xs xs' v : In v (dkeys items) -> shp (entry (out_at xs) v) = shp (entry (out_at xs') v).
  Proof using Hm Hgrid Hsol Ho2.
    intros Hv. destruct (arr_shapes ord1 ord2 items m0 m ps Ho1 Hd Hself Hplain Hi Hp Hsub G sol (inp xs) (inp xs') _ _ (out_spec xs) (out_spec xs') (fun s _ => inp_shapes xs xs' s) v Hv) as (c & c' & E1 & E2 & E3).
    unfold entry. rewrite E1, E2. exact E3.
  Qed.
  Lemma full_set xs j t : full_vector h m xs -> full_vector h m (set_nth xs j t).
  Proof using. unfold full_vector. rewrite set_nth_length. auto. Qed.
  Lemma param_args xs p j k t : full_vector h m xs -> free_number h om p j k -> (j < List.length xs)%nat ->
    exists d, with_param h om data xs [] p t d /\ arguments_are d (seen h om data (set_nth xs j t) []).
  Proof using Hm Hgrid.
    intros Hl Hf Hj. exists (dset (named (inp xs) names) (sname p) (scalar t)).
    assert (Hw : with_param h om data xs [] p t (dset (named (inp xs) names) (sname p) (scalar t))).
    { exists (named (inp xs) names). split; [apply args_inputs; exact Hl|reflexivity]. }
    split; [exact Hw|]. exact (with_param_seen h om data xs [] p j k t _ om_interface Hf Hj Hw).
  Qed.

  (** ** log-likelihood: value *)
  Lemma grows xs k x : clos_trans sym (refers itemsR) k x -> forall w, solution NDalg items (fun s => Ok (inp xs s)) w ->
    forall a, w k = Ok a -> exists b, w x = Ok b /\ fits (shp b) (shp a) = true.
  Proof using Hm.
    intros Hc w Hw. induction Hc as [k x Hr|k y x _ IH1 _ IH2]; intros a Ea.
    - destruct Hr as (e & Hin & Hme). apply in_comps in Hin. apply (in_comps (V:=res nd)) in Hin.
      pose proof (proj1 Hw _ _ Hin) as E. rewrite Ea in E. symmetry in E.
      destruct Hme as [Hme|(y & qs & Hme & _)]; [exact (nd_eval_grows w e (Hpow _ _ Hin) a E x Hme)|].
      assert (Hf : is_der (SDer y qs) = false) by (apply (proj2 Hplain k); exists e; split; [exact Hin|left; exact Hme]). discriminate.
    - destruct (IH1 a Ea) as (b & Eb & F1). destruct (IH2 b Eb) as (c & Ec & F2). exists c. split; [exact Ec|]. eapply fits_trans; eassumption.
  Qed.
  Lemma covered_shape xs v : covers_grid G es m data -> In v (m_dep m) -> shp (entry (out_at xs) v) = G.
  Proof using Hm Hgrid Hsol Ho2.
    intros [HG Hc] Hv. destruct (Hc v Hv) as (x & a & Hr & Hx & Ha & Hs).
    destruct (out_spec xs) as (_ & _ & w & Hw & Hall). destruct (Hall v (dep_key v Hv)) as (c & Ev & Eo & Hg & _).
    assert (Hxk : ~ In x (dkeys items)).
    { intros Hk. rewrite (proj1 fields) in Hx. destruct (proj1 (in_indep_iff ord1 items m0 Ho1 Hd Hi x) Hx) as (_ & _ & Q). exact (Q Hk). }
    destruct (grows xs v x Hr w Hw c Ev) as (b & Eb & Hfx). rewrite (proj2 Hw x Hxk) in Eb. injection Eb as <-.
    rewrite (inp_indep xs x a Hx Ha), Hs in Hfx. destruct Hg as [Hg _].
    pose proof (fits_antisym _ _ Hg Hfx) as E. unfold entry. rewrite Eo. unfold atleast_1d. destruct (shp c) eqn:Es; [congruence|]. rewrite Es. exact E.
  Qed.
  Lemma model_ll_value ob xs : obj_init true om data = Ok ob -> covers_grid G es m data -> full_vector h m xs ->
    ll_call h om ob xs [] = Ok (minus_log_likelihood G sol h m data xs).
  Proof using Hm Hgrid Hsol Ho2.
    intros Hob Hc Hl. rewrite (ll_value h om data ob [] (om_created true ob Hob) xs (out_at xs) (value_answer xs _ Hl (out_spec xs))).
    f_equal. unfold minus_log_sum, minus_log_likelihood. f_equal. apply Rsum_ext. intros v Hv. simpl in Hv.
    rewrite (covered_shape xs v Hc Hv). apply Rsum_ext. intros i Hin. f_equal.
    apply (value_val xs _ v i (out_spec xs) (dep_key v Hv)). rewrite (covered_shape xs v Hc Hv). exact Hin.
  Qed.
  Lemma positive_ok xs : covers_grid G es m data -> positive_at G sol h m data xs -> all_positive (om_dep om) (out_at xs).
  Proof using Hm Hgrid Hsol Ho2.
    intros Hc Hpos v i Hv Hin. simpl in Hv. destruct (value_val xs _ v i (out_spec xs) (dep_key v Hv) Hin) as [E _]. rewrite E.
    rewrite (covered_shape xs v Hc Hv) in Hin. exact (Hpos v i Hv Hin).
  Qed.

  Section WithJ.
    Context (J : dict sym (comp (V:=res nd))) (solJ : (sym -> R) -> sym -> R).
    Hypothesis HJ : jacobian_items simp ord2 m = Ok J.
    Hypothesis HnJ : names_apart J m.
    Hypothesis HsJ : solves_for J solJ.
    Hypothesis Hne : ps <> [].
    Hypothesis Hcls : cls <> KCallable.

    Lemma J_parts : exists v2f, vars_as_functions ord2 m = Ok v2f /\ jac_items simp v2f ps (m_dict m) = Ok J /\ above items J /\
      jac_items simp v2f ps (m_dict (mcast (W:=R) m)) = Ok (icast J).
    Proof using HJ Hm Hsimp Ho2.
      pose proof HJ as HJ'. unfold jacobian_items in HJ'. apply bind_Ok in HJ' as (v2f & Hv & HJ'). exists v2f. split; [exact Hv|]. split; [exact HJ'|]. split.
      - exact (above_J simp (proj1 Hsimp) ord1 ord2 items m0 m ps v2f Ho1 Ho2 Hd Hself (proj1 Hplain) (proj2 Hplain) Hi Hp Hv J HJ').
      - simpl. apply jac_items_icast. exact HJ'.
    Qed.
    Lemma AJ : above items J. Proof using HJ Hm Hsimp Ho2. destruct J_parts as (v2f & _ & _ & H & _). exact H. Qed.
    Lemma der_key v p : In v (dkeys items) -> In p ps -> In (der_of v (sname p)) (dkeys J).
    Proof using HJ Hm Hsimp Ho2.
      intros Hv Hpp. destruct J_parts as (v2f & _ & HJ' & _). destruct (proj1 Hplain v Hv) as (y & ->).
      exact (J_der_key simp ord1 items m0 m ps v2f Hd Hi Hp J HJ' y p Hv Hpp).
    Qed.
    Lemma defs_R xs i : In i (indices G) -> defined_at G es sol h m data xs -> defs itemsR sol (at_index (inp xs) i).
    Proof using. intros Hin Hdef k e Hk. apply in_comps in Hk. exact (Hdef i k e Hin Hk). Qed.

    Lemma predicted_derive xs i v p j : In v (dkeys items) -> free_at p j -> (j < List.length xs)%nat -> In i (indices G) ->
      defined_at G es sol h m data xs ->
      is_derive (fun t => predicted sol h ps data (set_nth xs j t) v i) (nth j xs 0) (solJ (at_index (inp xs) i) (der_of v (sname p))).
    Proof using HJ Hm Hsimp Ho2 Hsol HsJ.
      intros Hv Hf Hj Hin Hdef. destruct J_parts as (v2f & Hvf & _ & _ & HJR). destruct (free_facts p j Hf) as [Hpp _].
      assert (HvR : In v (dkeys itemsR)) by (rewrite dkeys_comps; rewrite dkeys_comps in Hv; exact Hv).
      pose proof (first_order simp ord1 ord2 itemsR (mcast m0) (mcast m) ps v2f Hsimp Ho1 Ho2 HdR HselfR (proj1 HplainR) (proj2 HplainR) HiR HpR Hps Hvf sol Hsol
        (icast J) HJR p (at_index (inp xs) i) (solJ (at_index (inp xs) i)) Hpp (HsJ _) (defs_R xs i Hin Hdef) v (or_introl HvR)) as Hd1.
      unfold dval in Hd1. rewrite (proj2 (inb_In v (dkeys itemsR)) HvR) in Hd1. rewrite (at_par xs p j i Hf Hj) in Hd1.
      eapply is_derive_ext; [|exact Hd1]. intros t. cbv beta. unfold predicted.
      apply (solX_ext items sol _ _ above_it Hn HsolN); [|left; exact Hv]. intros s _. symmetry. apply at_set; assumption.
    Qed.

    Definition jac_at xs : dict sym nd := match arr_jac simp ord2 m (named (inp xs) names) with Ok o => o | Raise _ => [] end.
    Lemma jac_at_spec xs : jac_spec simp ord2 items m ps solJ (inp xs) (out_at xs) (jac_at xs).
    Proof using HJ Hm Hsimp Ho2 Hsol HsJ HnJ Hne Hgrid.
      destruct (arr_jacobian simp ord1 ord2 items m0 m ps Hsimp Ho1 Ho2 Hd Hself Hplain Hpow Hi Hp Hsub G J solJ (inp xs) (out_at xs) sol Hne HJ (proj1 HnJ)
        (proj2 HnJ) HsJ (out_spec xs) (inp_ok xs)) as (jac & Hjac).
      unfold jac_at. rewrite (proj1 Hjac) by reflexivity. exact Hjac.
    Qed.
    Lemma jac_shape xs v : In v (dkeys items) -> shp (entry (jac_at xs) v) = shp (entry (out_at xs) v) ++ [List.length ps].
    Proof using HJ Hm Hsimp Ho2 Hsol HsJ HnJ Hne Hgrid.
      intros Hv. destruct (proj2 (proj2 (jac_at_spec xs)) v Hv) as (c & j & E1 & E2 & E3 & _). unfold entry. rewrite E1, E2. exact E3.
    Qed.
    Lemma solJ_clip xs i v p : In v (dkeys items) -> In p ps ->
      solJ (at_index (inp xs) (bidx G i)) (der_of v (sname p)) = solJ (at_index (inp xs) i) (der_of v (sname p)).
    Proof using HJ Hm Hsimp Ho2 HsJ HnJ Hgrid.
      intros Hv Hpp. apply (solX_ext J solJ _ _ AJ (proj1 HnJ) HsJ); [intros s Hs; apply at_clip; exact Hs|left; apply der_key; assumption].
    Qed.
    Lemma jac_val xs v i k p : In v (dkeys items) -> In i (indices (shp (entry (out_at xs) v))) -> nth_error ps k = Some p ->
      val (entry (jac_at xs) v) (i ++ [k]) = solJ (at_index (inp xs) (bidx G i)) (der_of v (sname p)).
    Proof using HJ Hm Hsimp Ho2 Hsol HsJ HnJ Hne Hgrid.
      intros Hv Hin Hk. destruct (proj2 (proj2 (jac_at_spec xs)) v Hv) as (c & j & E1 & E2 & E3 & E4 & _). unfold entry in Hin at 1. rewrite E1 in Hin.
      unfold entry. rewrite E2. rewrite (E4 i k p (indices_length _ _ Hin) Hk). symmetry. apply solJ_clip; [exact Hv|eapply nth_error_In; exact Hk].
    Qed.
    Lemma jac_lists xs : lists_dependent om (jac_at xs).
    Proof using HJ Hm Hsimp Ho2 Hsol HsJ HnJ Hne Hgrid. apply om_lists_jac. apply (jac_at_spec xs). Qed.
    Lemma om_jac_some : om_jac om = Some (arr_jac simp ord2 m).
    Proof using Hcls. destruct cls; [congruence|reflexivity|reflexivity]. Qed.
    Lemma jac_answers xs : full_vector h m xs -> answers (arr_jac simp ord2 m) h om data xs [] (jac_at xs).
    Proof using HJ Hm Hsimp Ho2 Hsol HsJ HnJ Hne Hgrid.
      intros Hl. exists (named (inp xs) names). split; [apply args_inputs; exact Hl|]. split; [apply (jac_at_spec xs); reflexivity|apply jac_lists].
    Qed.
    Lemma value_ok xs : full_vector h m xs -> value_at h om data xs [] (out_at xs).
    Proof using Hm Hgrid Hsol Ho2. intros Hl. apply value_answer; [exact Hl|apply out_spec]. Qed.
    Lemma shape_ne xs v y l : dependent_on_grid G m data -> In v (m_dep m) -> observed data v = Some y -> l <> [] -> G <> 1%nat :: l ->
      shp (entry (out_at xs) v) ++ l <> shp y.
    Proof using Hm Hgrid Hsol Ho2.
      intros [_ Hdep] Hv Hy Hnl Hc E. destruct (Hdep v y Hv Hy) as [Es _]. rewrite Es in E.
      destruct (value_entry xs _ v (out_spec xs) (dep_key v Hv)) as (a & Ea & Hg & _). rewrite Ea in E. destruct (shapes_grid G a Hg) as [[E1 E2]|[E1 E2]].
      - rewrite E1 in E. simpl in E. congruence.
      - apply (f_equal (@List.length nat)) in E. rewrite app_length, E1 in E. destruct l; [congruence|]. simpl in E. lia.
    Qed.
    Lemma jacobian_ok xs : dependent_on_grid G m data -> no_shape_clash G m -> full_vector h m xs -> jacobian_at h om data xs [] (out_at xs) (jac_at xs).
    Proof using HJ Hm Hsimp Ho2 Hsol HsJ HnJ Hne Hgrid Hcls.
      intros Hdep [Hc1 _] Hl. split; [exists (arr_jac simp ord2 m); split; [exact om_jac_some|apply jac_answers; exact Hl]|].
      intros v Hv. simpl in Hv. split; [apply jac_shape, dep_key; exact Hv|]. intros y Hy. rewrite (jac_shape xs v (dep_key v Hv)).
      apply (shape_ne xs v y [List.length ps] Hdep Hv Hy); [discriminate|exact Hc1].
    Qed.
    Lemma partial_ok xs p j k : full_vector h m xs -> free_number h om p j k -> (j < List.length xs)%nat -> defined_at G es sol h m data xs ->
      partial_in h om data xs [] p (nth j xs 0) (jac_at xs) k.
    Proof using HJ Hm Hsimp Ho2 Hsol HsJ HnJ Hne Hgrid.
      intros Hl Hf Hj Hdef. destruct Hf as [Hk Hfr]. assert (Hf : free_number h om p j k) by (split; assumption).
      exists (fun t => out_at (set_nth xs j t)). split.
      - apply filter_forall. intros t. destruct (param_args xs p j k t Hl Hf Hj) as (d & Hw & Ha). exists d. split; [exact Hw|].
        split; [apply (calls_args (arr_call ord2 m) (set_nth xs j t) _ d (full_set xs j t Hl) (proj1 (out_spec (set_nth xs j t))) Ha)|].
        split; [apply om_lists_value, out_spec|]. intros v Hv. apply out_shapes, dep_key. exact Hv.
      - intros v i Hv Hin. cbv beta in Hin. apply dep_key in Hv. rewrite (set_nth_same xs j _ Hj eq_refl) in Hin.
        rewrite (jac_val xs v i k p Hv Hin Hk).
        pose proof (value_val xs _ v i (out_spec xs) Hv Hin) as [_ Hclip].
        eapply is_derive_ext; [|exact (predicted_derive xs (bidx G i) v p j Hv Hfr Hj Hclip Hdef)].
        intros t. cbv beta. rewrite (out_shapes xs (set_nth xs j t) v Hv) in Hin.
        rewrite (proj1 (value_val _ _ v i (out_spec (set_nth xs j t)) Hv Hin)). apply predicted_clip. exact Hv.
    Qed.
    Lemma model_ls_gradient ob xs : obj_init false om data = Ok ob -> dependent_on_grid G m data -> no_shape_clash G m -> some_data om data ->
      full_vector h m xs -> defined_at G es sol h m data xs ->
      exists g, ls_jac h om ob xs [] = Ok g /\ shp g = [List.length ps] /\
        forall p j k, nth_error ps k = Some p -> free_at p j ->
          is_derive (fun t => half_chi2_at sol h m data (set_nth xs j t)) (nth j xs 0) (val g [k]).
    Proof using HJ Hm Hsimp Ho2 Hsol HsJ HnJ Hne Hgrid Hcls.
      intros Hob Hdep Hclash Hsd Hl Hdef.
      destruct (ls_gradient_is_derivative h om data ob [] (om_created false ob Hob) xs (out_at xs) (jac_at xs) (value_ok xs Hl) (value_fits xs _ Hdep (out_spec xs))
        (jacobian_ok xs Hdep Hclash Hl) Hsd) as (g & Hg & Hgs & Hgd).
      exists g. split; [exact Hg|]. split; [exact Hgs|]. intros p j k Hk Hf.
      assert (Hj : (j < List.length xs)%nat) by (unfold full_vector in Hl; rewrite Hl; apply nth_error_Some; unfold free_at in Hf; congruence).
      destruct (Hgd p j k (conj Hk Hf) Hj (partial_ok xs p j k Hl (conj Hk Hf) Hj Hdef)) as (F & HF & HdF).
      eapply is_derive_ext_loc; [|exact HdF]. eapply filter_imp; [|exact HF]. intros t Ht. cbv beta in Ht.
      rewrite (model_ls_value ob (set_nth xs j t) Hob Hdep (full_set xs j t Hl)) in Ht. congruence.
    Qed.

    Lemma free_len xs p j : full_vector h m xs -> free_at p j -> (j < List.length xs)%nat.
    Proof using. unfold full_vector. intros -> Hf. apply nth_error_Some. unfold free_at in Hf. congruence. Qed.
    Lemma model_ls_approx ob xs : obj_init false om data = Ok ob -> dependent_on_grid G m data -> no_shape_clash G m -> some_data om data ->
      full_vector h m xs -> defined_at G es sol h m data xs ->
      exists g, ls_hess_approx h om ob xs [] = Ok g /\ shp g = [List.length ps; List.length ps] /\
        (forall p j k q i l, nth_error ps k = Some p -> free_at p j -> nth_error ps l = Some q -> free_at q i ->
          exists D, (forall v b c n, In v (m_dep m) -> In n (indices G) -> (b, c) = (p, j) \/ (b, c) = (q, i) ->
                       is_derive (fun t => predicted sol h ps data (set_nth xs c t) v n) (nth c xs 0) (D v b n)) /\
            val g [l; k] = Rsum (map (fun v => match observed data v, observed data (sigma_of v) with
              | Some y, Some s => Rsum (map (fun n => D v p n * D v q n / elem s n ^ 2) (indices (shp y)))
              | _, _ => 0 end) (m_dep m))) /\
        (forall k l, (k < List.length ps)%nat -> (l < List.length ps)%nat -> val g [l; k] = val g [k; l]) /\
        forall z : nat -> R, 0 <= Rsum (map (fun k => Rsum (map (fun l => z k * val g [l; k] * z l) (seq 0 (List.length ps)))) (seq 0 (List.length ps))).
    Proof using HJ Hm Hsimp Ho2 Hsol HsJ HnJ Hne Hgrid Hcls.
      intros Hob Hdep Hclash Hsd Hl Hdef.
      destruct (ls_approx_spec h om data ob [] xs (out_at xs) (jac_at xs) (om_created false ob Hob) (value_ok xs Hl) (value_fits xs _ Hdep (out_spec xs))
        (jacobian_ok xs Hdep Hclash Hl) Hsd) as (g & Hg & Hgs & Hgv & Hgsym & Hpsd).
      exists g. split; [exact Hg|]. split; [exact Hgs|]. split; [|split; [exact Hgsym|exact Hpsd]].
      intros p j k q i l Hk Hfp Hl' Hfq.
      exists (fun v b n => solJ (at_index (inp xs) n) (der_of v (sname b))). split.
      - intros v b c n Hv Hn' Hbc. assert (Hb : free_at b c) by (destruct Hbc as [E|E]; inv E; assumption).
        apply predicted_derive; [apply dep_key; exact Hv|exact Hb|eapply free_len; eassumption|exact Hn'|exact Hdef].
      - rewrite Hgv by (apply nth_error_Some; simpl om_params; congruence). unfold jtwj. apply Rsum_ext. intros v Hv. simpl in Hv.
        destruct (observed data v) as [y|] eqn:Ey; [|reflexivity]. destruct (observed data (sigma_of v)) as [s|]; [|reflexivity].
        apply Rsum_ext. intros n Hin. destruct (proj2 Hdep v y Hv Ey) as (Es & _).
        assert (Hrow : forall k p, nth_error ps k = Some p -> at_point (row (entry (jac_at xs) v) k) y n = solJ (at_index (inp xs) n) (der_of v (sname p))).
        { intros k' p' Hk'. pose proof (value_entry xs _ v (out_spec xs) (dep_key v Hv)) as (a & Ea & Hga & _).
          assert (Hsr : shp (row (entry (jac_at xs) v) k') = shp (atleast_1d a)).
          { unfold row. cbn [shp]. rewrite (jac_shape xs v (dep_key v Hv)), removelast_last, Ea. reflexivity. }
          assert (Hst : fits (repeat 1%nat (List.length G - List.length (shp (atleast_1d a))) ++ shp (atleast_1d a)) G = true).
          { pose proof (stretches_grid G a y (proj1 Hdep) Hga Es) as Hst. unfold stretches in Hst. rewrite Es in Hst. exact Hst. }
          destruct (proj2 (proj2 (jac_at_spec xs)) v (dep_key v Hv)) as (c & jj & E1 & E2 & E3 & E4 & E5).
          assert (Ec : shp (atleast_1d a) = shp c) by (unfold entry in Ea; rewrite E1 in Ea; rewrite <- Ea; reflexivity).
          unfold at_point, elem. rewrite Hsr, Es, Ec. unfold entry. rewrite E2. cbn [val row].
          rewrite (E4 _ k' p'); [|apply bidx_length|exact Hk']. rewrite E5 by (eapply nth_error_In; exact Hk').
          destruct (shapes_grid G a Hga) as [[Q1 Q2]|[Q1 Q2]]; [|rewrite <- Ec, Q1, Nat.sub_diag; reflexivity].
          rewrite <- Ec, Q1. cbn [List.length].
          assert (Hpp' : In p' ps) by (eapply nth_error_In; exact Hk').
          pose proof (E5 (skipn (List.length G - 1) n) p' Hpp') as F1. pose proof (E5 n p' Hpp') as F2. rewrite <- Ec, Q1 in F1, F2.
          etransitivity; [symmetry; exact F1|etransitivity; [|exact F2]]. cbn. destruct n, (skipn _ _); reflexivity. }
        rewrite (Hrow k p Hk), (Hrow l q Hl'). reflexivity.
    Qed.
    Lemma plain_jac_ok xs : full_vector h m xs -> plain_jacobian h om data xs [] (out_at xs) (jac_at xs).
    Proof using HJ Hm Hsimp Ho2 Hsol HsJ HnJ Hne Hgrid Hcls.
      intros Hl. split; [exists (arr_jac simp ord2 m); split; [exact om_jac_some|apply jac_answers; exact Hl]|].
      intros v Hv. apply jac_shape, dep_key. exact Hv.
    Qed.
    Lemma model_ll_gradient ob xs : obj_init true om data = Ok ob -> covers_grid G es m data -> m_dep m <> [] ->
      full_vector h m xs -> positive_at G sol h m data xs -> defined_at G es sol h m data xs ->
      exists g, ll_jac h om ob xs [] = Ok g /\ shp g = [List.length ps] /\
        forall p j k, nth_error ps k = Some p -> free_at p j ->
          is_derive (fun t => minus_log_likelihood G sol h m data (set_nth xs j t)) (nth j xs 0) (val g [k]).
    Proof using HJ Hm Hsimp Ho2 Hsol HsJ HnJ Hne Hgrid Hcls.
      intros Hob Hc Hnd Hl Hpos Hdef.
      destruct (ll_gradient_is_derivative h om data ob [] (om_created true ob Hob) xs (out_at xs) (jac_at xs) (value_ok xs Hl) (positive_ok xs Hc Hpos) (plain_jac_ok xs Hl) Hnd) as (g & Hg & Hgs & Hgd).
      exists g. split; [exact Hg|]. split; [exact Hgs|]. intros p j k Hk Hf. pose proof (free_len xs p j Hl Hf) as Hj.
      destruct (Hgd p j k (conj Hk Hf) Hj (partial_ok xs p j k Hl (conj Hk Hf) Hj Hdef)) as (F & HF & HdF).
      eapply is_derive_ext_loc; [|exact HdF]. eapply filter_imp; [|exact HF]. intros t Ht. cbv beta in Ht.
      rewrite (model_ll_value ob (set_nth xs j t) Hob Hc (full_set xs j t Hl)) in Ht. congruence.
    Qed.
    Lemma model_mm ob xs v : mm_init om data = Ok ob -> m_dep m = [v] -> full_vector h m xs ->
      exists c j, mm_call h om ob xs [] = Ok c /\ mm_jac h om ob xs [] = Ok (Some j) /\ shp j = shp c ++ [List.length ps] /\
        (exists a, c = atleast_1d a /\ on_grid G (shp a)) /\
        (forall i, In i (indices (shp c)) -> val c i = predicted sol h ps data xs v i) /\
        (defined_at G es sol h m data xs -> forall i p q k, In i (indices (shp c)) -> nth_error ps k = Some p -> free_at p q ->
           is_derive (fun t => predicted sol h ps data (set_nth xs q t) v i) (nth q xs 0) (val j (i ++ [k]))).
    Proof using HJ Hm Hsimp Ho2 Hsol HsJ HnJ Hne Hgrid Hcls.
      intros Hob Hv Hl.
      destruct (mm_spec h om data ob [] xs (out_at xs) v Hob om_interface (om_of_by_keyword _ _ _ _) given (NoDup_nil _) Hv (value_ok xs Hl)) as (H1 & H2 & _).
      assert (Hvk : In v (dkeys items)) by (apply dep_key; rewrite Hv; left; reflexivity).
      exists (entry (out_at xs) v), (entry (jac_at xs) v). split; [exact H1|].
      split; [apply (H2 (arr_jac simp ord2 m)); [exact om_jac_some|apply jac_answers; exact Hl]|]. split; [apply jac_shape; exact Hvk|].
      split; [destruct (value_entry xs _ v (out_spec xs) Hvk) as (a & E & Hg & _); eauto|].
      split; [intros i Hin; apply (value_val xs _ v i (out_spec xs) Hvk Hin)|].
      intros Hdef i p q k Hin Hk Hf. rewrite (jac_val xs v i k p Hvk Hin Hk).
      pose proof (value_val xs _ v i (out_spec xs) Hvk Hin) as [_ Hclip].
      eapply is_derive_ext; [|exact (predicted_derive xs (bidx G i) v p q Hvk Hf (free_len xs p q Hl Hf) Hclip Hdef)].
      intros t. cbv beta. apply predicted_clip. exact Hvk.
    Qed.
    Lemma model_vls ob xs : obj_init false om data = Ok ob -> dependent_on_grid G m data -> some_data om data -> full_vector h m xs ->
      exists r, vls_call true h om ob xs [] = Ok r /\ shp r = [List.length (indices G)] /\
        Rsum (map (fun n => val r [n] ^ 2) (seq 0 (List.length (indices G)))) = 2 * half_chi2_at sol h m data xs.
    Proof using Hm Hgrid Hsol Ho2.
      intros Hob Hdep Hsd Hl.
      destruct (vls_value_spec h om data ob [] G xs (out_at xs) (om_created false ob Hob)) as (r & c & H1 & H2 & H3 & H4);
        [intros v y Hv Hy; apply (proj2 Hdep v y Hv Hy)|exact Hsd|apply value_ok; exact Hl|apply (value_fits xs); [exact Hdep|apply out_spec]|].
      exists r. split; [exact H1|]. split; [exact H2|]. rewrite H4. rewrite (model_ls_value ob xs Hob Hdep Hl) in H3. congruence.
    Qed.
    Lemma model_vls_jacobian ob xs : obj_init false om data = Ok ob -> dependent_on_grid G m data -> no_shape_clash G m -> some_data om data -> full_vector h m xs ->
      defined_at G es sol h m data xs ->
      exists r D, vls_call true h om ob xs [] = Ok r /\ vls_jac h om ob xs [] = Ok D /\ shp D = [List.length ps; List.length (indices G)] /\
        forall p j k n, nth_error ps k = Some p -> free_at p j -> (n < List.length (indices G))%nat -> val r [n] <> 0 ->
          exists F, locally (nth j xs 0) (fun t => exists rt, vls_call true h om ob (set_nth xs j t) [] = Ok rt /\ val rt [n] = F t) /\
                    is_derive F (nth j xs 0) (val D [k; n]).
    Proof using HJ Hm Hsimp Ho2 Hsol HsJ HnJ Hne Hgrid Hcls.
      intros Hob Hdep Hclash Hsd Hl Hdef.
      destruct (vls_jac_is_derivative h om data ob [] (om_created false ob Hob) G (fun v y Hv Hy => proj1 (proj2 Hdep v y Hv Hy)) Hsd xs (out_at xs) (jac_at xs)
        (value_ok xs Hl) (value_fits xs _ Hdep (out_spec xs)) (jacobian_ok xs Hdep Hclash Hl)) as (r & D & H1 & H2 & _ & H4 & H5).
      { simpl. assert (Hz : List.length (m_params m) <> 0%nat) by (intros E0; apply length_zero_iff_nil in E0; exact (Hne E0)). lia. }
      exists r, D. split; [exact H1|]. split; [exact H2|]. split; [exact H4|]. intros p j k n Hk Hf Hn' Hr. pose proof (free_len xs p j Hl Hf) as Hj.
      exact (H5 p j k n (conj Hk Hf) Hj (partial_ok xs p j k Hl (conj Hk Hf) Hj Hdef) Hn' Hr).
    Qed.
    Section WithH.
      Context (H : dict sym (comp (V:=res nd))) (solH : (sym -> R) -> sym -> R).
      Hypothesis HH : hessian_items simp ord2 m = Ok H.
      Hypothesis HnH : names_apart H m.
      Hypothesis HsH : solves_for H solH.
      Hypothesis HclsH : cls = KModel.

      Lemma H_parts : exists v2f, vars_as_functions ord2 m = Ok v2f /\ jac_items simp v2f ps (m_dict m) = Ok J /\ jac_items simp v2f ps J = Ok H /\ above items H /\
        jac_items simp v2f ps (m_dict (mcast (W:=R) m)) = Ok (icast J) /\ jac_items simp v2f ps (icast (W:=R) J) = Ok (icast H).
      Proof using HH HJ Hm Hsimp Ho2.
        destruct J_parts as (v2f & Hv & HJ' & _ & HJR). exists v2f. pose proof HH as HH'. unfold hessian_items in HH'. rewrite Hv in HH'. cbn [bind] in HH'.
        rewrite HJ' in HH'. cbn [bind] in HH'. split; [exact Hv|]. split; [exact HJ'|]. split; [exact HH'|]. split; [|split; [exact HJR|apply jac_items_icast; exact HH']].
        exact (above_H simp (proj1 Hsimp) ord1 ord2 items m0 m ps v2f Ho1 Ho2 Hd Hself (proj1 Hplain) (proj2 Hplain) Hi Hp Hv J H HJ' HH').
      Qed.
      Lemma AH : above items H. Proof using HH HJ Hm Hsimp Ho2. destruct H_parts as (v2f & _ & _ & _ & Q & _). exact Q. Qed.
      Lemma der_key2 v p q : In v (dkeys items) -> In p ps -> In q ps -> In (der_of (der_of v (sname p)) (sname q)) (dkeys H).
      Proof using HH HJ Hm Hsimp Ho2.
        intros Hv Hpp Hq. destruct H_parts as (v2f & _ & HJ' & HH' & _). destruct (proj1 Hplain v Hv) as (y & ->).
        exact (H_der_key simp ord1 items m0 m ps v2f Hd Hi Hp J H HJ' HH' y p q Hv Hpp Hq).
      Qed.
      Definition hess_at xs : dict sym nd := match arr_hess simp ord2 m (named (inp xs) names) with Ok o => o | Raise _ => [] end.
      Lemma hess_at_spec xs : hess_spec simp ord2 items m ps solH (inp xs) (out_at xs) (hess_at xs).
      Proof using HH HnH HsH HJ Hm Hsimp Ho2 Hsol Hne Hgrid.
        destruct (arr_hessian simp ord1 ord2 items m0 m ps Hsimp Ho1 Ho2 Hd Hself Hplain Hpow Hi Hp Hsub G H solH (inp xs) (out_at xs) sol Hne HH (proj1 HnH)
          (proj2 HnH) HsH (out_spec xs) (inp_ok xs)) as (hess & Hhess).
        unfold hess_at. rewrite (proj1 Hhess) by reflexivity. exact Hhess.
      Qed.
      Lemma hess_shape xs v : In v (dkeys items) -> shp (entry (hess_at xs) v) = shp (entry (out_at xs) v) ++ [List.length ps; List.length ps].
      Proof using HH HnH HsH HJ Hm Hsimp Ho2 Hsol Hne Hgrid.
        intros Hv. destruct (proj2 (proj2 (hess_at_spec xs)) v Hv) as (c & j & E1 & E2 & E3 & _). unfold entry. rewrite E1, E2. exact E3.
      Qed.
      Lemma hess_val xs v i k l p q : In v (dkeys items) -> In i (indices (shp (entry (out_at xs) v))) -> nth_error ps k = Some p -> nth_error ps l = Some q ->
        val (entry (hess_at xs) v) (i ++ [l; k]) = solH (at_index (inp xs) (bidx G i)) (der_of (der_of v (sname p)) (sname q)).
      Proof using HH HnH HsH HJ Hm Hsimp Ho2 Hsol Hne Hgrid.
        intros Hv Hin Hk Hl. destruct (proj2 (proj2 (hess_at_spec xs)) v Hv) as (c & j & E1 & E2 & E3 & E4). unfold entry in Hin at 1. rewrite E1 in Hin.
        unfold entry. rewrite E2. rewrite (E4 i k l p q (indices_length _ _ Hin) Hk Hl).
        apply (solX_ext H solH _ _ AH (proj1 HnH) HsH); [intros s Hs; symmetry; apply at_clip; exact Hs|].
        left; apply der_key2; [assumption|eapply nth_error_In; exact Hk|eapply nth_error_In; exact Hl].
      Qed.
      Lemma hess_lists xs : lists_dependent om (hess_at xs).
      Proof using HH HnH HsH HJ Hm Hsimp Ho2 Hsol Hne Hgrid. apply om_lists_jac. apply (hess_at_spec xs). Qed.
      Lemma hess_answers xs : full_vector h m xs -> answers (arr_hess simp ord2 m) h om data xs [] (hess_at xs).
      Proof using HH HnH HsH HJ Hm Hsimp Ho2 Hsol Hne Hgrid.
        intros Hl. exists (named (inp xs) names). split; [apply args_inputs; exact Hl|]. split; [apply (hess_at_spec xs); reflexivity|apply hess_lists].
      Qed.
      Lemma om_hess_some : om_hess om = Some (arr_hess simp ord2 m).
      Proof using HclsH. rewrite HclsH. reflexivity. Qed.
      Lemma hessian_ok xs : dependent_on_grid G m data -> no_shape_clash G m -> full_vector h m xs -> hessian_at h om data xs [] (out_at xs) (hess_at xs).
      Proof using HH HnH HsH HJ Hm Hsimp Ho2 Hsol Hne Hgrid HclsH.
        intros Hdep [_ Hc2] Hl. split; [exists (arr_hess simp ord2 m); split; [exact om_hess_some|apply hess_answers; exact Hl]|].
        intros v Hv. simpl in Hv. split; [apply hess_shape, dep_key; exact Hv|]. intros y Hy. rewrite (hess_shape xs v (dep_key v Hv)).
        apply (shape_ne xs v y [List.length ps; List.length ps] Hdep Hv Hy); [discriminate|exact Hc2].
      Qed.

      (** everything at one index *)
      Definition near_at xs i eps : Prop := 0 < eps /\ forall inp',
        (forall p, is_par p = true -> Rabs (inp' p - at_index (inp xs) i p) < eps) ->
        (forall s, is_par s = false -> inp' s = at_index (inp xs) i s) ->
        forall k e, In (k, e) es -> defined (sol inp') e.
      Lemma near_loc xs i eps : near_at xs i eps -> forall inp', (forall s, Rabs (inp' s - at_index (inp xs) i s) < eps) ->
        (forall s, is_par s = false -> inp' s = at_index (inp xs) i s) -> defs itemsR sol inp'.
      Proof using. intros [_ Hl] inp' H1 H2 k e Hin. apply in_comps in Hin. apply (Hl inp' (fun p _ => H1 p) H2 k e Hin). Qed.
      Lemma HnJR : distinct_names (icast (W:=R) J). Proof using HnJ. apply distinct_icast, (proj1 HnJ). Qed.
      Lemma mixed xs i eps v p q : near_at xs i eps -> In v (dkeys items) -> In p ps -> In q ps ->
        is_derive (fun u => solJ (set_input (at_index (inp xs) i) q u) (der_of v (sname p))) (at_index (inp xs) i q)
          (solH (at_index (inp xs) i) (der_of (der_of v (sname p)) (sname q))).
      Proof using HH HsH HnJ HsJ HJ Hm Hsimp Ho2 Hsol.
        intros Hna Hv Hpp Hq. destruct H_parts as (v2f & Hvf & _ & _ & _ & HJR & HHR).
        assert (HvR : In v (dkeys itemsR)) by (rewrite dkeys_comps; rewrite dkeys_comps in Hv; exact Hv).
        pose proof (second_order simp ord1 ord2 itemsR (mcast m0) (mcast m) ps v2f Hsimp Ho1 Ho2 HdR HselfR (proj1 HplainR) (proj2 HplainR) HiR HpR Hps Hvf sol Hsol
          (icast J) (icast H) HJR HHR HnJR (at_index (inp xs) i) (solH (at_index (inp xs) i)) solJ eps (HsH _) HsJ (proj1 Hna) (near_loc xs i eps Hna) v (or_introl HvR) p q Hpp Hq) as Hso.
        destruct (proj1 Hplain v Hv) as (y & ->). unfold dval2, dval in Hso. rewrite (proj2 (inb_In _ (dkeys itemsR)) HvR) in Hso. exact Hso.
      Qed.
      Lemma mixed_sym xs i eps v p q : near_at xs i eps -> In v (dkeys items) -> In p ps -> In q ps ->
        solH (at_index (inp xs) i) (der_of (der_of v (sname p)) (sname q)) = solH (at_index (inp xs) i) (der_of (der_of v (sname q)) (sname p)).
      Proof using HH HsH HnJ HsJ HJ Hm Hsimp Ho2 Hsol.
        intros Hna Hv Hpp Hq. destruct H_parts as (v2f & Hvf & _ & _ & _ & HJR & HHR).
        assert (HvR : In v (dkeys itemsR)) by (rewrite dkeys_comps; rewrite dkeys_comps in Hv; exact Hv).
        assert (Hso : forall p q, In p ps -> In q ps -> is_derive (fun u => dval itemsR (solJ (set_input (at_index (inp xs) i) q u)) p v) (at_index (inp xs) i q)
           (dval2 itemsR (solH (at_index (inp xs) i)) p q v)).
        { intros p' q' Hp' Hq'. exact (second_order simp ord1 ord2 itemsR (mcast m0) (mcast m) ps v2f Hsimp Ho1 Ho2 HdR HselfR (proj1 HplainR) (proj2 HplainR) HiR HpR Hps Hvf sol Hsol
          (icast J) (icast H) HJR HHR HnJR (at_index (inp xs) i) (solH (at_index (inp xs) i)) solJ eps (HsH _) HsJ (proj1 Hna) (near_loc xs i eps Hna) v (or_introl HvR) p' q' Hp' Hq'). }
        pose proof (schwarz simp ord1 ord2 itemsR (mcast m0) (mcast m) ps v2f Hsimp Ho1 Ho2 HdR HselfR (proj1 HplainR) (proj2 HplainR) HiR HpR Hps Hvf sol Hsol
          (icast J) HJR (at_index (inp xs) i) (solH (at_index (inp xs) i)) solJ eps HsJ (proj1 Hna) (near_loc xs i eps Hna) p q v Hpp Hq (or_introl HvR) (Hso p q Hpp Hq) (Hso q p Hq Hpp)) as E.
        destruct (proj1 Hplain v Hv) as (y & ->). unfold dval2 in E. rewrite (proj2 (inb_In _ (dkeys itemsR)) HvR) in E. exact E.
      Qed.
      Lemma defined_here xs : defined_near G es sol h m data xs -> defined_at G es sol h m data xs.
      Proof using.
        intros Hn' i k e Hin Hk. destruct (Hn' i Hin) as (eps & He & Hl). refine (Hl (at_index (inp xs) i) _ _ k e Hk); auto.
        intros p _. rewrite Rminus_eq_0, Rabs_R0. exact He.
      Qed.

      Lemma near_line xs i eps q j t : near_at xs i eps -> free_at q j -> (j < List.length xs)%nat -> Rabs (t - nth j xs 0) < eps ->
        forall k e, In (k, e) es -> defined (sol (at_index (inp (set_nth xs j t)) i)) e.
      Proof using Hm.
        intros [He Hl] Hf Hj Ht. apply Hl.
        - intros p Hpar. rewrite (at_set xs q j t i p Hf Hj). unfold set_input. destruct (eq_dec p q) as [->|].
          + rewrite (at_par xs q j i Hf Hj). exact Ht.
          + rewrite Rminus_eq_0, Rabs_R0. exact He.
        - intros s Hs. rewrite (at_set xs q j t i s Hf Hj). unfold set_input. destruct (eq_dec s q) as [->|]; [|reflexivity].
          rewrite (Hps q (proj1 (free_facts q j Hf))) in Hs. discriminate.
      Qed.
      Lemma locally_all (P : list nat -> R -> Prop) x l : (forall i, In i l -> locally x (P i)) -> locally x (fun t => forall i, In i l -> P i t).
      Proof using.
        induction l as [|a l IH]; intros Hl; [apply filter_forall; intros t i []|].
        eapply filter_imp; [|apply (filter_and _ _ (Hl a (or_introl eq_refl)) (IH (fun i Hi => Hl i (or_intror Hi))))].
        intros t [H1 H2] i [->|Hin]; [exact H1|exact (H2 i Hin)].
      Qed.
      Lemma defined_line xs q j : defined_near G es sol h m data xs -> free_at q j -> (j < List.length xs)%nat ->
        locally (nth j xs 0) (fun t => defined_at G es sol h m data (set_nth xs j t)).
      Proof using Hm.
        intros Hnear Hf Hj.
        pose proof (locally_all (fun i t => forall k e, In (k, e) es -> defined (sol (at_index (inp (set_nth xs j t)) i)) e) (nth j xs 0) (indices G)) as HL.
        eapply filter_imp; [|apply HL; intros i Hin].
        - intros t Ht i k e Hin Hk. exact (Ht i Hin k e Hk).
        - destruct (Hnear i Hin) as (eps & He & Hl). exists (mkposreal eps He). intros t Ht k e Hk.
          exact (near_line xs i eps q j t (conj He Hl) Hf Hj Ht k e Hk).
      Qed.
      Lemma partial2_ok xs p j k q l : full_vector h m xs -> nth_error ps k = Some p -> free_number h om q j l -> (j < List.length xs)%nat ->
        defined_near G es sol h m data xs -> partial2_in h om data xs [] q (nth j xs 0) (jac_at xs) (hess_at xs) k l.
      Proof using HH HnH HsH HJ Hm Hsimp Ho2 Hsol HsJ HnJ Hne Hgrid Hcls.
        intros Hl Hk Hf Hj Hnear. destruct Hf as [Hk2 Hfr]. assert (Hf : free_number h om q j l) by (split; assumption).
        exists (fun t => out_at (set_nth xs j t)), (fun t => jac_at (set_nth xs j t)).
        assert (Esame : set_nth xs j (nth j xs 0) = xs) by (apply (set_nth_same xs j _ Hj eq_refl)).
        split; [|split; [rewrite Esame; reflexivity|split]].
        - apply filter_forall. intros t. destruct (param_args xs q j l t Hl Hf Hj) as (d & Hw & Ha). exists d, (arr_jac simp ord2 m). split; [exact Hw|].
          split; [apply (calls_args (arr_call ord2 m) (set_nth xs j t) _ d (full_set xs j t Hl) (proj1 (out_spec (set_nth xs j t))) Ha)|].
          split; [apply om_lists_value, out_spec|]. split; [intros v Hv; apply out_shapes, dep_key; exact Hv|].
          split; [exact om_jac_some|].
          split; [apply (calls_args (arr_jac simp ord2 m) (set_nth xs j t) _ d (full_set xs j t Hl) (proj1 (jac_at_spec (set_nth xs j t))) Ha)|].
          split; [apply jac_lists|]. intros v Hv. apply dep_key in Hv. rewrite !jac_shape by exact Hv. f_equal. apply out_shapes; exact Hv.
        - destruct (partial_ok xs q j l Hl Hf Hj (defined_here xs Hnear)) as (_ & _ & _).
          intros v i Hv Hin. cbv beta in Hin. apply dep_key in Hv. rewrite Esame in Hin.
          rewrite (jac_val xs v i l q Hv Hin Hk2).
          pose proof (value_val xs _ v i (out_spec xs) Hv Hin) as [_ Hclip].
          eapply is_derive_ext; [|exact (predicted_derive xs (bidx G i) v q j Hv Hfr Hj Hclip (defined_here xs Hnear))].
          intros t. cbv beta. rewrite (out_shapes xs (set_nth xs j t) v Hv) in Hin.
          rewrite (proj1 (value_val _ _ v i (out_spec (set_nth xs j t)) Hv Hin)). apply predicted_clip. exact Hv.
        - intros v i Hv Hin. cbv beta in Hin. apply dep_key in Hv. rewrite Esame in Hin.
          rewrite (hess_val xs v i k l p q Hv Hin Hk Hk2).
          pose proof (value_val xs _ v i (out_spec xs) Hv Hin) as [_ Hclip]. destruct (Hnear _ Hclip) as (eps & Heps & Hloc).
          assert (Hpp : In p ps) by (eapply nth_error_In; exact Hk). assert (Hqp : In q ps) by (eapply nth_error_In; exact Hk2).
          pose proof (mixed xs (bidx G i) eps v p q (conj Heps Hloc) Hv Hpp Hqp) as Hmx. rewrite (at_par xs q j _ Hfr Hj) in Hmx.
          eapply is_derive_ext; [|exact Hmx]. intros t. cbv beta. rewrite (out_shapes xs (set_nth xs j t) v Hv) in Hin.
          rewrite (jac_val (set_nth xs j t) v i k p Hv Hin Hk).
          apply (solX_ext J solJ _ _ AJ (proj1 HnJ) HsJ); [|left; apply der_key; assumption]. intros s _. symmetry. apply at_set; assumption.
      Qed.
      Lemma hess_sym xs : defined_near G es sol h m data xs -> forall v i k l, In v (om_dep om) -> In i (indices (shp (entry (out_at xs) v))) ->
        (k < List.length (om_params om))%nat -> (l < List.length (om_params om))%nat ->
        val (entry (hess_at xs) v) (i ++ [l; k]) = val (entry (hess_at xs) v) (i ++ [k; l]).
      Proof using HH HnH HsH HJ Hm Hsimp Ho2 Hsol HsJ HnJ Hne Hgrid.
        intros Hnear v i k l Hv Hin Hk Hl. apply dep_key in Hv. simpl om_params in Hk, Hl.
        destruct (nth_error ps k) as [p|] eqn:Ek; [|apply nth_error_None in Ek; lia]. destruct (nth_error ps l) as [q|] eqn:El; [|apply nth_error_None in El; lia].
        rewrite (hess_val xs v i k l p q Hv Hin Ek El), (hess_val xs v i l k q p Hv Hin El Ek).
        pose proof (value_val xs _ v i (out_spec xs) Hv Hin) as [_ Hclip]. destruct (Hnear _ Hclip) as (eps & Heps & Hloc).
        apply (mixed_sym xs (bidx G i) eps v p q (conj Heps Hloc) Hv); eapply nth_error_In; eassumption.
      Qed.
      Lemma model_ls_hessian ob xs : obj_init false om data = Ok ob -> dependent_on_grid G m data -> no_shape_clash G m -> some_data om data ->
        full_vector h m xs -> defined_near G es sol h m data xs ->
        exists g, ls_hess h om ob xs [] = Ok g /\ shp g = [List.length ps; List.length ps] /\
          (forall p j k q i l, nth_error ps k = Some p -> free_at p j -> nth_error ps l = Some q -> free_at q i ->
            is_derive (fun t => Derive (fun u => half_chi2_at sol h m data (set_nth (set_nth xs i t) j u)) (nth j (set_nth xs i t) 0)) (nth i xs 0) (val g [l; k])) /\
          forall k l, (k < List.length ps)%nat -> (l < List.length ps)%nat -> val g [l; k] = val g [k; l].
      Proof using HH HnH HsH HclsH HJ Hm Hsimp Ho2 Hsol HsJ HnJ Hne Hgrid Hcls.
        intros Hob Hdep Hclash Hsd Hl Hnear.
        destruct (ls_hessian_is_derivative h om data ob [] (om_created false ob Hob) xs (out_at xs) (jac_at xs) (hess_at xs) (value_ok xs Hl) (value_fits xs _ Hdep (out_spec xs))
          (jacobian_ok xs Hdep Hclash Hl) (hessian_ok xs Hdep Hclash Hl) Hsd) as (g & Hg & Hgs & Hgd & Hsym).
        exists g. split; [exact Hg|]. split; [exact Hgs|]. split; [|exact (Hsym (hess_sym xs Hnear))].
        intros p j k q i l Hk Hfp Hl' Hfq.
        assert (Hlen : forall s n, free_at s n -> (n < List.length xs)%nat).
        { intros s n Hs. unfold full_vector in Hl. rewrite Hl. apply nth_error_Some. unfold free_at in Hs. congruence. }
        assert (Hkn : (k < List.length (om_params om))%nat) by (apply nth_error_Some; simpl om_params; congruence).
        destruct (Hgd q i k l (conj Hl' Hfq) (Hlen q i Hfq) Hkn (partial2_ok xs p i k q l Hl Hk (conj Hl' Hfq) (Hlen q i Hfq) Hnear)) as (F & HF & HdF).
        eapply is_derive_ext_loc; [|exact HdF].
        eapply filter_imp; [|apply (filter_and _ _ HF (defined_line xs q i Hnear Hfq (Hlen q i Hfq)))].
        intros t [[Ht _] Hdt]. cbv beta.
        destruct (model_ls_gradient ob (set_nth xs i t) Hob Hdep Hclash Hsd (full_set xs i t Hl) Hdt) as (g' & Hg' & _ & Hd').
        rewrite Hg' in Ht. inv Ht. symmetry. apply is_derive_unique. apply Hd' with (p := p); assumption.
      Qed.

      Lemma plain_hess_ok xs : full_vector h m xs -> plain_hessian h om data xs [] (out_at xs) (hess_at xs).
      Proof using HH HnH HsH HclsH HJ Hm Hsimp Ho2 Hsol Hne Hgrid.
        intros Hl. split; [exists (arr_hess simp ord2 m); split; [exact om_hess_some|apply hess_answers; exact Hl]|].
        intros v Hv. apply hess_shape, dep_key. exact Hv.
      Qed.
      Lemma locally_each (P : sym -> R -> Prop) x l : (forall i, In i l -> locally x (P i)) -> locally x (fun t => forall i, In i l -> P i t).
      Proof using.
        induction l as [|a l IH]; intros Hl; [apply filter_forall; intros t i []|].
        eapply filter_imp; [|apply (filter_and _ _ (Hl a (or_introl eq_refl)) (IH (fun i Hi => Hl i (or_intror Hi))))].
        intros t [H1 H2] i [->|Hin]; [exact H1|exact (H2 i Hin)].
      Qed.
      Lemma positive_line xs q j : defined_at G es sol h m data xs -> positive_at G sol h m data xs -> free_at q j -> (j < List.length xs)%nat ->
        locally (nth j xs 0) (fun t => positive_at G sol h m data (set_nth xs j t)).
      Proof using HJ Hm Hsimp Ho2 Hsol HsJ.
        intros Hdef Hpos Hf Hj. unfold positive_at.
        eapply filter_imp; [|apply (locally_each (fun v t => forall i, In i (indices G) -> 0 < predicted sol h ps data (set_nth xs j t) v i) (nth j xs 0) (m_dep m)); intros v Hv;
          apply (locally_all (fun i t => 0 < predicted sol h ps data (set_nth xs j t) v i) (nth j xs 0) (indices G)); intros i Hin].
        - intros t Ht v i Hv Hin. exact (Ht v Hv i Hin).
        - pose proof (predicted_derive xs i v q j (dep_key v Hv) Hf Hj Hin Hdef) as Hder.
          assert (Hcont : continuous (fun t => predicted sol h ps data (set_nth xs j t) v i) (nth j xs 0)) by (apply (ex_derive_continuous (V:=R_NormedModule)); eexists; exact Hder).
          apply (Hcont (fun y => 0 < y)). rewrite (set_nth_same xs j _ Hj eq_refl). apply open_gt. exact (Hpos v i Hv Hin).
      Qed.
      Lemma model_ll_hessian ob xs : obj_init true om data = Ok ob -> covers_grid G es m data -> m_dep m <> [] ->
        full_vector h m xs -> positive_at G sol h m data xs -> defined_near G es sol h m data xs ->
        exists g, ll_hess h om ob xs [] = Ok g /\ shp g = [List.length ps; List.length ps] /\
          (forall p j k q i l, nth_error ps k = Some p -> free_at p j -> nth_error ps l = Some q -> free_at q i ->
            is_derive (fun t => Derive (fun u => minus_log_likelihood G sol h m data (set_nth (set_nth xs i t) j u)) (nth j (set_nth xs i t) 0)) (nth i xs 0) (val g [l; k])) /\
          forall k l, (k < List.length ps)%nat -> (l < List.length ps)%nat -> val g [l; k] = val g [k; l].
      Proof using HH HnH HsH HclsH HJ Hm Hsimp Ho2 Hsol HsJ HnJ Hne Hgrid Hcls.
        intros Hob Hc Hnd Hl Hpos Hnear.
        destruct (ll_hessian_is_derivative h om data ob [] (om_created true ob Hob) xs (out_at xs) (jac_at xs) (hess_at xs) (value_ok xs Hl) (positive_ok xs Hc Hpos)
          (plain_jac_ok xs Hl) (plain_hess_ok xs Hl) Hnd) as (g & Hg & Hgs & Hgd & Hsym).
        exists g. split; [exact Hg|]. split; [exact Hgs|]. split; [|exact (Hsym (hess_sym xs Hnear))].
        intros p j k q i l Hk Hfp Hl' Hfq. pose proof (free_len xs q i Hl Hfq) as Hlen.
        assert (Hkn : (k < List.length (om_params om))%nat) by (apply nth_error_Some; simpl om_params; congruence).
        destruct (Hgd q i k l (conj Hl' Hfq) Hlen Hkn (partial2_ok xs p i k q l Hl Hk (conj Hl' Hfq) Hlen Hnear)) as (F & HF & HdF).
        eapply is_derive_ext_loc; [|exact HdF].
        eapply filter_imp; [|apply (filter_and _ _ HF (filter_and _ _ (defined_line xs q i Hnear Hfq Hlen) (positive_line xs q i (defined_here xs Hnear) Hpos Hfq Hlen)))].
        intros t [[Ht _] [Hdt Hpt]]. cbv beta.
        destruct (model_ll_gradient ob (set_nth xs i t) Hob Hc Hnd (full_set xs i t Hl) Hpt Hdt) as (g' & Hg' & _ & Hd').
        rewrite Hg' in Ht. inv Ht. symmetry. apply is_derive_unique. apply Hd' with (p := p); assumption.
      Qed.
      Lemma model_mm_hessian ob xs v : mm_init om data = Ok ob -> m_dep m = [v] -> full_vector h m xs ->
        exists c g, mm_call h om ob xs [] = Ok c /\ mm_hess h om ob xs [] = Ok (Some g) /\ shp g = shp c ++ [List.length ps; List.length ps] /\
          (defined_near G es sol h m data xs -> 
            (forall n p j k q i l, In n (indices (shp c)) -> nth_error ps k = Some p -> free_at p j -> nth_error ps l = Some q -> free_at q i ->
              is_derive (fun t => Derive (fun u => predicted sol h ps data (set_nth (set_nth xs i t) j u) v n) (nth j (set_nth xs i t) 0)) (nth i xs 0) (val g (n ++ [l; k]))) /\
            forall n k l, In n (indices (shp c)) -> (k < List.length ps)%nat -> (l < List.length ps)%nat -> val g (n ++ [l; k]) = val g (n ++ [k; l])).
      Proof using HH HnH HsH HclsH HJ Hm Hsimp Ho2 Hsol HsJ HnJ Hne Hgrid Hcls.
        intros Hob Hv Hl.
        destruct (mm_spec h om data ob [] xs (out_at xs) v Hob om_interface (om_of_by_keyword _ _ _ _) given (NoDup_nil _) Hv (value_ok xs Hl)) as (H1 & _ & H2 & _).
        assert (Hvd : In v (m_dep m)) by (rewrite Hv; left; reflexivity). assert (Hvk : In v (dkeys items)) by (apply dep_key; exact Hvd).
        exists (entry (out_at xs) v), (entry (hess_at xs) v). split; [exact H1|].
        split; [apply (H2 (arr_hess simp ord2 m)); [exact om_hess_some|apply hess_answers; exact Hl]|]. split; [apply hess_shape; exact Hvk|].
        intros Hnear. split; [|intros n k l; apply (hess_sym xs Hnear v n k l Hvd)].
        intros n p j k q i l Hin Hk Hfp Hl' Hfq. pose proof (free_len xs q i Hl Hfq) as Hlen.
        destruct (partial2_ok xs p i k q l Hl Hk (conj Hl' Hfq) Hlen Hnear) as (_ & _ & _ & _ & _ & _).
        pose proof (value_val xs _ v n (out_spec xs) Hvk Hin) as [_ Hclip]. destruct (Hnear _ Hclip) as (eps & Heps & Hloc).
        assert (Hpp : In p ps) by (eapply nth_error_In; exact Hk). assert (Hqp : In q ps) by (eapply nth_error_In; exact Hl').
        pose proof (mixed xs (bidx G n) eps v p q (conj Heps Hloc) Hvk Hpp Hqp) as Hmx. rewrite (at_par xs q i _ Hfq Hlen) in Hmx.
        rewrite (hess_val xs v n k l p q Hvk Hin Hk Hl').
        eapply is_derive_ext_loc; [|exact Hmx]. eapply filter_imp; [|exact (defined_line xs q i Hnear Hfq Hlen)]. intros t Hdt. cbv beta.
        pose proof (predicted_derive (set_nth xs i t) (bidx G n) v p j Hvk Hfp (free_len _ p j (full_set xs i t Hl) Hfp) Hclip Hdt) as Hd1.
        symmetry. etransitivity; [apply Derive_ext; intros u; symmetry; apply predicted_clip; exact Hvk|].
        etransitivity; [apply is_derive_unique; exact Hd1|].
        apply (solX_ext J solJ _ _ AJ (proj1 HnJ) HsJ); [|left; apply der_key; assumption]. intros s _. apply at_set; assumption.
      Qed.
    End WithH.
  End WithJ.
End Obj.

(** For a model with its own parameters nothing more is asked than different names. *)
Lemma apart_J simp ord1 ord2 es m J : simp_ok simp -> set_order ord2 -> model_of ord1 es m -> jacobian_items simp ord2 m = Ok J -> distinct_names J -> names_apart J m.
Proof.
  intros Hs Ho Hm HJ Hn. split; [exact Hn|]. apply (apart_self ord1 es m J Hm); [|exact Hn]. exact (AJ simp ord1 ord2 es m m Hs Ho (built_self ord1 es m Hm) J HJ).
Qed.
Lemma apart_H simp ord1 ord2 es m J H : simp_ok simp -> set_order ord2 -> model_of ord1 es m -> jacobian_items simp ord2 m = Ok J -> hessian_items simp ord2 m = Ok H -> distinct_names H -> names_apart H m.
Proof.
  intros Hs Ho Hm HJ HH Hn. split; [exact Hn|]. apply (apart_self ord1 es m H Hm); [|exact Hn]. exact (AH simp ord1 ord2 es m m Hs Ho (built_self ord1 es m Hm) J HJ H HH).
Qed.
