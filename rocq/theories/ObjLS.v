(** * ObjLS: the evaluations of an objective in terms of the model's answers. *)
From Coq Require Import Reals Lra.
From Coquelicot Require Import Coquelicot.
From Verif Require Import PyBase PyFacts Expr NumPy NumFacts Objective ObjSpec ObjFacts.
Local Open Scope R_scope.

(** ** zips of maps *)
Lemma combine_map2 {A B C} (f : A -> B) (g : A -> C) l : combine (map f l) (map g l) = map (fun a => (f a, g a)) l.
Proof. induction l; simpl; [reflexivity|f_equal; assumption]. Qed.
Lemma combine_self {A C} (g : A -> C) l : combine l (map g l) = map (fun a => (a, g a)) l.
Proof. induction l; simpl; [reflexivity|f_equal; assumption]. Qed.
Lemma foldM_ext {A S} (f g : S -> A -> res S) l : (forall s a, In a l -> f s a = g s a) -> forall s, foldM f s l = foldM g s l.
Proof. induction l as [|a l IH]; simpl; intros H s; [reflexivity|]. rewrite H by auto. destruct (g s a); simpl; auto. Qed.

(** ** shaping *)
Lemma shp_expand_n k : forall a, shp (expand_n k a) = repeat 1%nat k ++ shp a.
Proof. induction k as [|k IH]; intros a; simpl; [reflexivity|]. rewrite IH. simpl. change (1%nat :: repeat 1%nat k ++ shp a) with ((1%nat :: repeat 1%nat k) ++ shp a). rewrite repeat_cons, <- app_assoc. reflexivity. Qed.
Lemma elem_expand_n k : forall a i, elem (expand_n k a) i = elem a (skipn k i).
Proof.
  induction k as [|k IH]; intros a i; [destruct i; reflexivity|]. change (expand_n (S k) a) with (expand_n k (expand_last a)). rewrite IH, elem_expand_last. f_equal.
  clear. revert i; induction k as [|k IH]; intros [|x i]; [reflexivity|reflexivity|reflexivity|]. simpl skipn at 1. rewrite IH. reflexivity.
Qed.
Definition dim_diff (level : nat) (y c : nd) : nat := (List.length (shp y) - (List.length (shp c) - level))%nat.
Definition stretches_at (np level : nat) (y c : nd) : Prop :=
  fits (repeat 1%nat (dim_diff level y c) ++ shp c) (shp y ++ repeat np level) = true /\ (level = 0%nat \/ shp c <> shp y).
Definition shaped (np level : nat) (y c : nd) : nd :=
  match shape_one np level y c with Ok c' => c' | Raise _ => c end.
Lemma shaped_ok np level y c : stretches_at np level y c ->
  shape_one np level y c = Ok (shaped np level y c) /\ shp (shaped np level y c) = shp y ++ repeat np level /\
  forall i, In i (indices (shp y ++ repeat np level)) -> val (shaped np level y c) i = elem c (skipn (dim_diff level y c) i).
Proof.
  intros [Hf Hl]. unfold shaped, shape_one. destruct (list_eq_dec Nat.eq_dec (shp y) (shp c)) as [He|Hne].
  - destruct Hl as [->|Hl]; [|congruence]. simpl. split; [reflexivity|]. rewrite app_nil_r. split; [congruence|].
    intros i Hi. unfold dim_diff. rewrite He, Nat.sub_0_r, Nat.sub_diag. simpl. rewrite He in Hi. symmetry. apply elem_val. exact Hi.
  - fold (dim_diff level y c). unfold broadcast_to. rewrite shp_expand_n, Hf. split; [reflexivity|]. simpl. split; [reflexivity|].
    intros i _. apply elem_expand_n.
Qed.

Lemma stretches_0 np y c : stretches c y -> stretches_at np 0 y c.
Proof. unfold stretches, stretches_at, dim_diff. rewrite Nat.sub_0_r. simpl. rewrite app_nil_r. auto. Qed.
Lemma dim_diff_0 y c : dim_diff 0 y c = (List.length (shp y) - List.length (shp c))%nat.
Proof. unfold dim_diff. rewrite Nat.sub_0_r. reflexivity. Qed.

(** the index of a component that is read at a data point *)
Lemma fits_index s : forall t i, fits s t = true -> In i (indices t) -> In (bidx s i) (indices s).
Proof.
  induction s as [|d s IH]; intros t i Hf Hi; [simpl; auto|]. destruct t as [|e t]; [discriminate|].
  apply fits_cons in Hf as [Hd Hf]. apply in_indices in Hi. inv Hi. apply in_indices. simpl. constructor.
  - destruct (Nat.eqb_spec d 1); [lia|]. destruct Hd; [subst; assumption|congruence].
  - apply in_indices. eapply IH; [exact Hf|]. apply in_indices. assumption.
Qed.
Lemma bidx_skip k s i : (k <= List.length i)%nat -> bidx (repeat 1%nat k ++ s) i = repeat 0%nat k ++ bidx s (skipn k i).
Proof. revert i; induction k as [|k IH]; intros i Hl; simpl; [reflexivity|]. destruct i as [|j i]; simpl in *; [lia|]. f_equal. apply IH. lia. Qed.
Lemma point_index c y i : stretches c y -> In i (indices (shp y)) ->
  In (bidx (shp c) (skipn (List.length (shp y) - List.length (shp c)) i)) (indices (shp c)).
Proof.
  intros Hs Hi. pose proof (fits_index _ _ _ Hs Hi) as H. pose proof (indices_length _ _ Hi) as Hl.
  rewrite bidx_skip in H by lia. apply in_indices in H. apply in_indices.
  apply Forall2_app_inv_l in H as (l1 & l2 & H1 & H2 & He).
  assert (l1 = repeat 1%nat (List.length (shp y) - List.length (shp c))).
  { apply Forall2_len in H1. rewrite repeat_length in H1. apply (f_equal (firstn (List.length (shp y) - List.length (shp c)))) in He.
    rewrite !firstn_app, repeat_length, <- H1, !Nat.sub_diag, !firstn_O, !app_nil_r in He. rewrite firstn_all2 in He by (rewrite repeat_length; lia).
    rewrite firstn_all2 in He by lia. congruence. }
  subst l1. apply app_inv_head in He. subst l2. exact H2.
Qed.
Lemma stretches_jac np y c j level : stretches c y -> shp j = shp c ++ repeat np level -> shp j <> shp y ->
  stretches_at np level y j /\ dim_diff level y j = (List.length (shp y) - List.length (shp c))%nat.
Proof.
  intros Hs Hj Hne. assert (Hd : dim_diff level y j = (List.length (shp y) - List.length (shp c))%nat).
  { unfold dim_diff. rewrite Hj, app_length, repeat_length. f_equal. lia. }
  split; [|exact Hd]. split; [|right; exact Hne]. rewrite Hd, Hj, app_assoc. unfold stretches in Hs. revert Hs.
  assert (Hl : List.length (repeat 1%nat (List.length (shp y) - List.length (shp c)) ++ shp c) = Nat.max (List.length (shp y)) (List.length (shp c))).
  { rewrite app_length, repeat_length. lia. }
  intros Hs. pose proof (fits_length _ _ Hs) as Hle. rewrite Hl in Hle.
  assert (Hl' : List.length (repeat 1%nat (List.length (shp y) - List.length (shp c)) ++ shp c) = List.length (shp y)) by lia.
  revert Hs Hl'. generalize (repeat 1%nat (List.length (shp y) - List.length (shp c)) ++ shp c). generalize (shp y). clear.
  intros t s. revert t. induction s as [|d s IH]; intros [|e t] Hs Hl; simpl in Hl; try discriminate.
  - simpl. apply fits_refl.
  - apply fits_cons in Hs as [H1 H2]. simpl app. apply fits_cons. split; [exact H1|]. apply IH; [exact H2|lia].
Qed.
(** reading a Jacobian (level 1) or Hessian (level 2) entry at a data point *)
Lemma at_point_jac np y c j level i k : stretches c y -> shp j = shp c ++ repeat np level -> shp j <> shp y ->
  In i (indices (shp y)) -> In k (indices (repeat np level)) ->
  shp (shaped np level y j) = shp y ++ repeat np level /\
  val (shaped np level y j) (i ++ k) = val j (bidx (shp c) (skipn (List.length (shp y) - List.length (shp c)) i) ++ k).
Proof.
  intros Hs Hj Hne Hi Hk. destruct (stretches_jac _ _ _ _ _ Hs Hj Hne) as [Hst Hd].
  destruct (shaped_ok _ _ _ _ Hst) as (_ & H2 & H3). split; [exact H2|]. rewrite H3.
  - unfold elem. rewrite Hj, Hd, bidx_app. pose proof (indices_length _ _ Hi) as Hl.
    assert (Hle : (List.length (shp c) <= List.length (shp y))%nat).
    { unfold stretches in Hs. apply fits_length in Hs. rewrite app_length, repeat_length in Hs. lia. }
    rewrite skipn_app. replace (List.length (shp y) - List.length (shp c) - List.length i)%nat with 0%nat by lia. simpl.
    assert (Hls : List.length (skipn (List.length (shp y) - List.length (shp c)) i) = List.length (shp c)) by (rewrite skipn_length; lia).
    rewrite bidx_more by (rewrite Hls; reflexivity). rewrite (skipn_app (List.length (shp c))).
    rewrite (skipn_all2 (n := List.length (shp c)) (skipn (List.length (shp y) - List.length (shp c)) i)) by (rewrite Hls; reflexivity). rewrite Hls, Nat.sub_diag. simpl. rewrite (bidx_id _ _ Hk). reflexivity.
  - apply in_indices. apply Forall2_app; apply in_indices; assumption.
Qed.

Section LS.
  Context (h : heap) (om : omodel) (data : dict sym (option nd)) (ob : obj) (xs : list R) (kw : dict string R).
  Context (b : bool).
  Hypothesis Hint : interface om.
  Hypothesis Hkwd : by_keyword om.
  Hypothesis Hob : obj_init b om data = Ok ob.
  Hypothesis Hkw : NoDup (dkeys kw).
  Hypothesis Hind : independent_data_given om data.
  Let np := List.length (om_params om).

  Lemma inv_ok : exists inv, compute_inv h om ob = Ok inv.
  Proof using Hint Hob Hind.
    destruct (obj_init_inv _ _ _ _ Hob) as (_ & _ & Hi & _). unfold compute_inv.
    pose proof (indep_names om Hint) as Hnd.
    set (L := dict_of (map (fun vd : sym * option nd => (sname (fst vd), snd vd)) (ob_ind ob))).
    assert (HL : L = map (fun v => (sname v, match dget data v with Some x => x | None => None end)) (om_indep om)).
    { unfold L. rewrite Hi. rewrite (dict_of_nodup (map (fun v => (v, _)) (om_indep om))) by (rewrite map_map; simpl; rewrite map_id; apply NoDup_map_of with (f := sname); exact Hnd).
      rewrite map_map. apply dict_of_nodup. rewrite map_map. exact Hnd. }
    assert (Hall : forall n, In n (filter (dmem L) (om_names om)) -> exists a, dget L n = Some (Some a)).
    { intros n Hn. apply filter_In in Hn as [_ Hn]. apply dmem_keys in Hn. rewrite HL in Hn |- *.
      unfold dkeys in Hn. rewrite map_map in Hn. apply in_map_iff in Hn as (v & <- & Hv). destruct (Hind v Hv) as (a & Ha). exists a.
      apply In_dget; [unfold dkeys; rewrite map_map; exact Hnd|]. apply in_map_iff. exists v. split; [simpl; rewrite Ha; reflexivity|exact Hv]. }
    match goal with |- context [mapM ?f ?l] => assert (H : exists r, mapM f l = Ok r) end.
    { revert Hall. generalize (filter (dmem L) (om_names om)).
      induction l as [|n l IH]; simpl; intros Hall; [eauto|]. destruct (Hall n) as (a & ->); [auto|]. destruct IH as (r & ->); [auto|]. simpl. eauto. }
    destruct H as (r & ->). simpl. eauto.
  Qed.
  Lemma invariant_fresh : exists inv ob', invariant_kwargs h om ob = Ok (inv, ob') /\ compute_inv h om ob = Ok inv.
  Proof using Hint Hob Hind.
    destruct inv_ok as (inv & Hinv). destruct (obj_init_inv _ _ _ _ Hob) as (_ & Hn & _). unfold invariant_kwargs. rewrite Hn, Hinv. simpl. eauto.
  Qed.

  Lemma dep_data_observed v : b = false -> In v (om_dep om) -> dep_data ob v = observed data v.
  Proof using Hob Hint.
    intros -> Hv. destruct (obj_init_inv _ _ _ _ Hob) as (_ & _ & _ & _ & Hd & _). destruct Hint as (_ & _ & Hnd).
    unfold dep_data, observed. rewrite Hd, dict_of_nodup by (rewrite map_map; simpl; rewrite map_id; exact Hnd).
    erewrite In_dget; [|unfold dkeys; rewrite map_map; simpl; rewrite map_id; exact Hnd|apply in_map_iff; exists v; split; [reflexivity|exact Hv]].
    destruct (dget data v) as [[y|]|]; reflexivity.
  Qed.
  Lemma dep_data_none v : b = true -> dep_data ob v = None.
  Proof using Hob. intros ->. destruct (obj_init_inv _ _ _ _ Hob) as (_ & _ & _ & _ & Hd & _). unfold dep_data. rewrite Hd. reflexivity. Qed.
  Lemma sigma_inj v w : sigma_of v = sigma_of w -> sname v = sname w.
  Proof using. unfold sigma_of. intros H. injection H. auto. Qed.
  Lemma sigma_data_observed v s : b = false -> NoDup (map sname (om_dep om)) -> In v (om_dep om) -> observed data (sigma_of v) = Some s -> sigma_data ob v = Ok s.
  Proof using Hob Hint.
    intros -> Hnd Hv Hs. destruct (obj_init_inv _ _ _ _ Hob) as (_ & _ & _ & _ & _ & Hd & _).
    assert (HN : NoDup (map sigma_of (om_dep om))).
    { clear -Hnd. induction (om_dep om) as [|w l IH]; simpl in *; [constructor|]. inv Hnd. constructor; [|auto].
      intros Hi. apply in_map_iff in Hi as (u & He & Hu). apply H1. apply sigma_inj in He. rewrite <- He. apply in_map; exact Hu. }
    unfold sigma_data, dlook. rewrite Hd, dict_of_nodup by (rewrite map_map; exact HN).
    erewrite In_dget; [|unfold dkeys; rewrite map_map; exact HN|apply in_map_iff; exists v; split; [reflexivity|exact Hv]].
    unfold observed in Hs. destruct (dget data (sigma_of v)) as [[y|]|]; try discriminate. inv Hs. reflexivity.
  Qed.

  Lemma keep_dep_map out : lists_dependent om out -> keep_dep om out = map (entry out) (om_dep om).
  Proof using Hint.
    intros Hl. destruct Hint as (_ & _ & Hnd). unfold keep_dep, lists_dependent in *.
    assert (Hk : map fst (filter (fun vc : sym * nd => inb (fst vc) (om_dep om)) out) = om_dep om).
    { etransitivity; [|exact Hl]. unfold dkeys. generalize (om_dep om) as D. clear. intros D. induction out as [|[v c] out IH]; simpl; [reflexivity|].
      destruct (inb v D); simpl; [f_equal|]; exact IH. }
    assert (He : forall v, In v (om_dep om) -> entry out v = match dget (filter (fun vc : sym * nd => inb (fst vc) (om_dep om)) out) v with Some c => c | None => scalar 0 end).
    { intros v Hv. unfold entry. rewrite (dget_filter_key (fun w => inb w (om_dep om)) out v), (proj2 (inb_In _ _) Hv). reflexivity. }
    rewrite (map_ext_in _ _ _ He). revert Hk Hnd. generalize (filter (fun vc : sym * nd => inb (fst vc) (om_dep om)) out) as L.
    intros L Hk Hnd. rewrite <- Hk in Hnd. rewrite <- Hk. clear -Hnd. rewrite map_map. apply map_ext_in. intros [v c] Hin. simpl.
    rewrite (In_dget L v c Hnd Hin). reflexivity.
  Qed.

  (** shaped answer for a dependent variable *)
  Definition shaped_for (level : nat) (v : sym) (c : nd) : nd :=
    match dep_data ob v with Some y => shaped np level y c | None => c end.

  Lemma base_eval_ok f level out d : (forall d1 d2, NoDup (dkeys d1) -> NoDup (dkeys d2) -> (forall n, dget d1 n = dget d2 n) -> f d1 = f d2) ->
    arguments_are d (seen h om data xs kw) -> f d = Ok out -> lists_dependent om out ->
    (forall v y, In v (om_dep om) -> dep_data ob v = Some y -> stretches_at np level y (entry out v)) ->
    base_eval f level h om ob xs kw = Ok (map (fun v => shaped_for level v (entry out v)) (om_dep om)).
  Proof using Hint Hob Hkw Hind.
    intros Hf [Hd1 Hd2] Hout Hl Hs. destruct invariant_fresh as (inv & ob' & Hi & Hc). unfold base_eval. rewrite Hi. simpl.
    destruct (prepare_seen h om data b ob Hint Hob inv xs kw Hc Hkw) as [Hp1 Hp2].
    rewrite (Hf (prepare h om inv xs kw) d Hp1 Hd1) by (intros n; rewrite Hp2, Hd2; reflexivity).
    rewrite Hout. simpl. rewrite (keep_dep_map _ Hl). unfold shape_of_dependent_data. rewrite combine_self.
    rewrite mapM_map with (g := fun vc => shaped_for level (fst vc) (snd vc)).
    - rewrite map_map. reflexivity.
    - intros [v c] Hin. apply in_map_iff in Hin as (w & Hq & Hv). inv Hq. simpl. unfold shaped_for.
      destruct (dep_data ob v) as [y|] eqn:E.
      + unfold dep_data in E. destruct (dget (ob_dep ob) v) as [[y'|]|] eqn:E'; try discriminate. injection E as ->.
        apply shaped_ok. apply Hs; [exact Hv|]. unfold dep_data. rewrite E'. reflexivity.
      + unfold dep_data in E. destruct (dget (ob_dep ob) v) as [[y'|]|] eqn:E'; try discriminate; reflexivity.
  Qed.
End LS.
