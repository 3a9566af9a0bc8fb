(** * MinLemmas: the remaining lemmas behind Prop_Minimizer.v. *)
From Coq Require Import Reals Lra.
From Verif Require Import PyBase PyFacts Toposort Signature SignatureFacts Expr NumPy NumFacts Model ModelSpec ModelFacts CallFacts Objective ObjSpec ObjFacts ObjLS ObjCommon ObjExample Minimizer MinSpec MinFacts.
Local Open Scope R_scope.
Local Open Scope string_scope.
Local Open Scope list_scope.

(** ** evaluation depends on what the model sees only *)
Section Seen.
  Context (h : heap) (om : omodel) (data : dict sym (option nd)) (b : bool) (ob : obj) (xs xs' : list R) (kw kw' : dict string R).
  Hypothesis Hint : interface om.
  Hypothesis Hby : by_keyword om.
  Hypothesis Hob : obj_init b om data = Ok ob.
  Hypothesis Hkw : NoDup (dkeys kw).
  Hypothesis Hkw' : NoDup (dkeys kw').
  Hypothesis Hseen : forall n, seen h om data xs kw n = seen h om data xs' kw' n.

  Lemma base_seen f level : (forall d1 d2, NoDup (dkeys d1) -> NoDup (dkeys d2) -> (forall n, dget d1 n = dget d2 n) -> f d1 = f d2) ->
    base_eval f level h om ob xs kw = base_eval f level h om ob xs' kw'.
  Proof using Hint Hob Hkw Hkw' Hseen.
    intros Hf. unfold base_eval, invariant_kwargs. destruct (obj_init_inv _ _ _ _ Hob) as (_ & Hn & _). rewrite Hn.
    destruct (compute_inv h om ob) as [inv|e] eqn:Hc; [|reflexivity]. cbn [bind fst].
    destruct (prepare_seen h om data b ob Hint Hob inv xs kw Hc Hkw) as [N1 G1]. destruct (prepare_seen h om data b ob Hint Hob inv xs' kw' Hc Hkw') as [N2 G2].
    rewrite (Hf (prepare h om inv xs kw) (prepare h om inv xs' kw')); [reflexivity|exact N1|exact N2|].
    intros n. rewrite G1, G2. apply Hseen.
  Qed.
  Lemma evaluate_seen : evaluate h om ob xs kw = evaluate h om ob xs' kw'.
  Proof using Hint Hby Hob Hkw Hkw' Hseen.
    assert (HC : base_call h om ob xs kw = base_call h om ob xs' kw').
    { apply base_seen. intros d1 d2 N1 N2 Hd. exact (proj1 (Hby d1 d2 N1 N2 Hd)). }
    assert (HJ : base_jac h om ob xs kw = base_jac h om ob xs' kw').
    { unfold base_jac. destruct (om_jac om) as [f|] eqn:E; [|reflexivity]. apply base_seen. intros d1 d2 N1 N2 Hd. destruct (Hby d1 d2 N1 N2 Hd) as (_ & H & _). apply H. exact E. }
    assert (HH : base_hess h om ob xs kw = base_hess h om ob xs' kw').
    { unfold base_hess. destruct (om_hess om) as [f|] eqn:E; [|reflexivity]. apply base_seen. intros d1 d2 N1 N2 Hd. destruct (Hby d1 d2 N1 N2 Hd) as (_ & _ & H). apply H. exact E. }
    unfold evaluate, ls_call, ls_chi2, ls_jac, ls_hess, ls_hess_approx, ls_hess_with, zero_hess, vls_jac, vls_call, ll_call, ll_jac, ll_hess, ll_hess_with, mm_call, mm_jac, mm_hess.
    rewrite HC, HJ, HH. reflexivity.
  Qed.
End Seen.

Lemma result_keys ps popt : NoDup (map sname ps) -> List.length popt = List.length ps -> dkeys (result_params ps popt) = map sname ps.
Proof.
  intros Hn Hl. unfold result_params. rewrite dict_of_nodup by (apply NoDup_combine_keys; exact Hn).
  rewrite <- (map_length sname) in Hl. clear Hn. unfold dkeys. revert popt Hl. induction (map sname ps) as [|a l IH]; intros [|v popt] Hl; simpl in *; try lia; [reflexivity|]. f_equal. apply IH. lia.
Qed.

(** the reported values make the model see what it saw at the vector *)
Lemma seen_result h om data x popt : interface om -> List.length x = nfree h (om_params om) -> pack_output h (om_params om) x = Ok popt ->
  forall n, seen h om data x [] n = seen h om data [] (result_params (om_params om) popt) n.
Proof.
  intros Hi Hl Hp n. destruct (pack_ok h (om_params om) x Hl) as (popt' & Hp' & Hlen & Hfix & Hfree). rewrite Hp in Hp'. inv Hp'. rename popt' into popt.
  pose proof (params_names om Hi) as Hnd. pose proof (NoDup_map_of _ _ Hnd) as Hnd'.
  unfold seen. destruct (find (fun v => eqb (sname v) n) (om_indep om)); [reflexivity|].
  destruct (find (fun p => eqb (sname p) n && p_fixed (h p)) (om_params om)) as [q|] eqn:Eq; [reflexivity|].
  assert (Hcn : forall m, combine m (@nil R) = (@nil (string * R))) by (intros []; reflexivity). rewrite Hcn. simpl dget at 2.
  change (filter (fun p => negb (p_fixed (h p))) (om_params om)) with (free_of_list h (om_params om)).
  destruct (in_dec string_dec n (map sname (om_params om))) as [Hin|Hin].
  - apply in_map_iff in Hin as (p & <- & Hp0). assert (Hfp : p_fixed (h p) = false).
    { apply (find_none _ _ Eq) in Hp0. rewrite eqb_refl in Hp0. exact Hp0. }
    apply In_nth_error in Hp0 as (k & Hk). assert (Hpf : In p (free_of_list h (om_params om))) by (apply filter_In; rewrite Hfp; split; [eapply nth_error_In; exact Hk|reflexivity]).
    apply In_nth_error in Hpf as (i & Hpi). assert (Hii : (i < List.length x)%nat) by (rewrite Hl; apply nth_error_Some; congruence).
    destruct (nth_error x i) as [v|] eqn:Ev; [|apply nth_error_None in Ev; lia].
    rewrite (dget_combine_nth (map sname (free_of_list h (om_params om))) x i (sname p) v); [|apply NoDup_map_filter; exact Hnd|apply map_nth_error; exact Hpi|exact Ev].
    rewrite (result_lookup (om_params om) popt k p v Hnd Hk); [reflexivity|]. rewrite (Hfree p i k Hnd' (conj Hpi Hk)). exact Ev.
  - match goal with |- context [dget ?d n] => assert (H1 : dget d n = None) end.
    { apply dget_None. intros H. apply in_combine_keys in H. apply in_map_iff in H as (p & <- & H). apply filter_In in H as [H _]. apply Hin. apply in_map. exact H. }
    assert (H2 : dget (result_params (om_params om) popt) n = None) by (apply dget_None; rewrite result_keys by assumption; exact Hin).
    rewrite H1, H2. reflexivity.
Qed.

Lemma reported_reproduce : forall h om data b ob x, interface om -> by_keyword om -> obj_init b om data = Ok ob ->
  List.length x = nfree h (om_params om) ->
  exists popt, pack_output h (om_params om) x = Ok popt /\
    evaluate h om ob [] (result_params (om_params om) popt) = evaluate h om ob x [].
Proof.
  intros h om data b ob x Hi Hb Hob Hl. destruct (pack_ok h (om_params om) x Hl) as (popt & Hp & Hlen & _). exists popt. split; [exact Hp|].
  symmetry. apply (evaluate_seen h om data b ob x [] [] _ Hi Hb Hob); [constructor|unfold result_params, dict_of; apply NoDup_dupdate; constructor|].
  apply seen_result; assumption.
Qed.
Lemma within_reported : forall h ps x popt, NoDup (map sname ps) -> List.length x = nfree h ps -> pack_output h ps x = Ok popt ->
  (forall i p v, nth_error (free_of_list h ps) i = Some p -> nth_error x i = Some v -> within h p v) ->
  forall p, In p ps -> p_fixed (h p) = false -> exists v, dget (result_params ps popt) (sname p) = Some v /\ within h p v.
Proof.
  intros h ps x popt Hn Hl Hp Hw p Hin Hf. destruct (pack_ok h ps x Hl) as (popt' & Hp' & Hlen & _ & Hfree). rewrite Hp in Hp'. inv Hp'. rename popt' into popt.
  apply In_nth_error in Hin as (k & Hk). assert (Hpf : In p (free_of_list h ps)) by (apply filter_In; rewrite Hf; split; [eapply nth_error_In; exact Hk|reflexivity]).
  apply In_nth_error in Hpf as (i & Hpi). assert (Hii : (i < List.length x)%nat) by (rewrite Hl; apply nth_error_Some; congruence).
  destruct (nth_error x i) as [v|] eqn:Ev; [|apply nth_error_None in Ev; lia]. exists v. split; [|apply (Hw i p v Hpi Ev)].
  apply (result_lookup ps popt k p v Hn Hk). rewrite (Hfree p i k (NoDup_map_of _ _ Hn) (conj Hpi Hk)). exact Ev.
Qed.

(** ** a plain function as objective *)

Lemma peel_step {A} `{EqDec A} n (d : dict A (list A)) l : ready d = l -> l <> [] -> peel (S n) d = (rest <- peel n (advance d l) ;; Ok (l :: rest)).
Proof. intros Hr Hne. simpl. rewrite Hr. destruct l; [contradiction|reflexivity]. Qed.
Lemma toposort_star {A} `{EqDec A} (y : A) (ps : list A) : NoDup ps -> ps <> [] -> ~ In y ps -> toposort [(y, ps)] = Ok [ps; [y]].
Proof.
  intros Hn Hne Hy. unfold toposort.
  assert (Hf : filter (fun e => negb (eqb e y)) ps = ps).
  { clear -Hy. induction ps as [|p ps IH]; [reflexivity|]. simpl in *. destruct (eqb p y) eqn:E; [apply (proj1 (eqb_true _ _)) in E; exfalso; apply Hy; left; exact E|]. simpl. rewrite IH; [reflexivity|]. tauto. }
  assert (Hd : diffl ps [y] = ps).
  { clear -Hy. unfold diffl. induction ps as [|p ps IH]; [reflexivity|]. cbn [filter]. assert (E : inb p [y] = false) by (apply inb_false; intros [E|[]]; apply Hy; left; symmetry; exact E). rewrite E. cbn [negb]. rewrite IH; [reflexivity|]. intros Hc; apply Hy; right; exact Hc. }
  assert (Hpr : Toposort.prepare [(y, ps)] = (y, ps) :: map (fun x => (x, [])) ps).
  { unfold Toposort.prepare, strip_self, extra_items. cbn [map fst snd]. rewrite Hf. unfold dvals, dkeys. cbn [map fst snd concat app]. rewrite app_nil_r, dedup_id by exact Hn. rewrite Hd. reflexivity. }
  rewrite Hpr. cbn [List.length]. rewrite map_length.
  assert (Hr : ready ((y, ps) :: map (fun x => (x, [])) ps) = ps).
  { unfold ready. cbn [filter snd]. destruct ps as [|p0 ps0]; [contradiction|]. generalize (p0 :: ps0). intros l. induction l as [|q l IH]; [reflexivity|]. cbn [map filter snd fst]. f_equal. exact IH. }
  assert (Ha : advance ((y, ps) :: map (fun x => (x, [])) ps) ps = [(y, [])]).
  { unfold advance. cbn [filter fst]. rewrite (proj2 (inb_false y ps)) by exact Hy. cbn [negb map fst snd]. f_equal.
    - f_equal. unfold diffl. assert (Hz : forall l, incl l ps -> filter (fun x => negb (inb x ps)) l = []).
      { induction l as [|q l IH]; intros Hl; [reflexivity|]. cbn [filter]. rewrite (proj2 (inb_In q ps)) by (apply Hl; left; reflexivity). cbn [negb]. apply IH. intros z Hz. apply Hl; right; exact Hz. }
      apply Hz. apply incl_refl.
    - assert (Hz : forall l, incl l ps -> filter (fun kd : A * list A => negb (inb (fst kd) ps)) (map (fun x => (x, [])) l) = []).
      { induction l as [|q l IH]; intros Hl; [reflexivity|]. cbn [map filter fst]. rewrite (proj2 (inb_In q ps)) by (apply Hl; left; reflexivity). cbn [negb]. apply IH. intros z Hz. apply Hl; right; exact Hz. }
      rewrite (Hz ps) by apply incl_refl. reflexivity. }
  rewrite (peel_step _ _ _ Hr Hne), Ha.
  assert (Hlen : exists k, List.length ps = S k) by (destruct ps as [|p0 ps0]; [contradiction|eexists; reflexivity]). destruct Hlen as (k & ->).
  assert (Hr2 : ready [(y, @nil A)] = [y]) by reflexivity. rewrite (peel_step (S k) _ _ Hr2) by discriminate.
  assert (Ha2 : advance [(y, @nil A)] [y] = []). { unfold advance. cbn [filter fst]. rewrite (proj2 (inb_In y [y])) by (left; reflexivity). reflexivity. }
  rewrite Ha2. reflexivity.
Qed.
Lemma direct_model {V} ord (y : sym) (f : dict string V -> res V) ps : set_order ord -> NoDup (map sname ps) -> ps <> [] -> ~ In y ps ->
  (forall p, In p ps -> is_par p = true) -> is_par y = false ->
  exists m : model (V:=V), init_numerical ord [(y, CFun 0 f)] [(y, ps)] = Ok m /\
    m_params m = sort_by sname ps /\ m_indep m = [] /\ m_dep m = [y].
Proof.
  intros Ho Hn Hne Hy Hpar Hyp. pose proof (NoDup_map_of _ _ Hn) as Hnd.
  unfold init_numerical. cbn [filter snd bind]. unfold classify. rewrite (toposort_star y ps Hnd Hne Hy). cbn [bind rev app].
  assert (Hki : key_inj sname ps).
  { intros a b Ha Hb He. apply In_nth_error in Ha as (i & Hi). apply In_nth_error in Hb as (j & Hj).
    assert (i = j); [|congruence]. apply (nodup_nth (map sname ps) i j (sname a) Hn); [apply map_nth_error; exact Hi|rewrite He; apply map_nth_error; exact Hj]. }
  assert (Hs : sort_by sname (ord ps) = sort_by sname ps) by (symmetry; apply sort_by_perm_eq; [exact Hki|apply Permutation_sym, Ho]).
  assert (Hoy : ord [y] = [y]) by (apply Permutation_length_1_inv, Permutation_sym, Ho).
  rewrite Hs, Hoy. cbn [flat_map app].
  assert (Hall : forall l, (forall p, In p l -> is_par p = true) -> filter is_par l = l /\ filter (fun s => negb (is_par s) && negb (dmem (sort_items [(y, CFun (V:=V) 0 f)]) s)) l = []).
  { induction l as [|q l IH]; intros Hl; [split; reflexivity|]. destruct IH as [I1 I2]; [intros; apply Hl; right; assumption|]. cbn [filter]. rewrite (Hl q) by (left; reflexivity). cbn [negb andb]. rewrite I1, I2. split; reflexivity. }
  destruct (Hall (sort_by sname ps)) as [F1 F2]; [intros p Hp; apply Hpar; apply (in_sort_by sname); exact Hp|]. rewrite F1, F2.
  assert (HN : NoDup (map sname ([] ++ sort_by sname ps))).
  { cbn [app]. rewrite map_sort_by. apply NoDup_sort_by. exact Hn. }
  rewrite (make_signature_intro [] (sort_by sname ps) HN). cbn [bind]. unfold sort_by at 1 3. cbn [existsb isort fold_right insert orb]. rewrite Hyp. cbn [orb existsb].
  eexists. split; [reflexivity|]. cbn. auto.
Qed.

Lemma Permutation_filter {B} (g : B -> bool) l l' : Permutation l l' -> Permutation (filter g l) (filter g l').
Proof.
  induction 1 as [|x l l' H IH|x y l|l l' l'' H1 IH1 H2 IH2]; simpl; [constructor| | |eapply perm_trans; eassumption].
  - destruct (g x); [constructor; exact IH|exact IH].
  - destruct (g x), (g y); try apply Permutation_refl. constructor.
Qed.
Lemma direct_any h f ps x : NoDup (map sname ps) -> List.length x = nfree h ps ->
  exists ob popt d, mm_init (direct_om f ps) [] = Ok ob /\ pack_output h (sort_by sname ps) x = Ok popt /\
    mm_call h (direct_om f ps) ob x [] = f d /\ NoDup (dkeys d) /\
    forall n, dget d n = option_map scalar (dget (result_params (sort_by sname ps) popt) n).
Proof.
  intros Hn Hl. set (om := direct_om f ps).
  assert (Hpar : om_params om = sort_by sname ps) by reflexivity.
  assert (Hperm := sort_by_perm sname ps).
  assert (Hn' : NoDup (map sname (sort_by sname ps))) by (eapply Permutation_NoDup; [apply Permutation_map; exact Hperm|exact Hn]).
  assert (Hl' : List.length x = nfree h (sort_by sname ps)).
  { rewrite Hl. unfold nfree, free_of_list. apply Permutation_length. apply Permutation_filter. exact Hperm. }
  assert (Hi : interface om).
  { split; [reflexivity|]. rewrite Hpar. split; [exact Hn'|]. apply nodupb_iff; reflexivity. }
  destruct (pack_ok h (sort_by sname ps) x Hl') as (popt & Hp & Hlen & Hfix & Hfree).
  eexists _, popt. unfold mm_init, obj_init. cbn [om_dep om direct_om List.length Nat.ltb Nat.leb om_indep mapM bind]. 
  set (ob := {| ob_data := []; ob_dep := _; ob_ind := _; ob_sig := _; ob_inv := _ |}).
  assert (Hob : obj_init true om [] = Ok ob) by reflexivity.
  assert (Hci : exists inv, compute_inv h om ob = Ok inv).
  { destruct (inv_ok h om [] ob true Hi Hob) as (inv & Hinv); [|eauto]. intros v Hv. contradiction. }
  destruct Hci as (inv & Hinv). destruct (prepare_seen h om [] true ob Hi Hob inv x [] Hinv) as [N G]; [constructor|].
  exists (Objective.prepare h om inv x []). split; [reflexivity|]. split; [exact Hp|]. split.
  - unfold mm_call, base_call, base_eval, invariant_kwargs. cbn [ob_inv ob]. fold ob. rewrite Hinv. cbn [bind fst].
    change (om_call om (Objective.prepare h om inv x [])) with (v <- f (Objective.prepare h om inv x []) ;; Ok [(SVar "y", v)]).
    destruct (f (Objective.prepare h om inv x [])) as [v|e]; [|reflexivity]. reflexivity.
  - split; [exact N|]. intros n. rewrite G. rewrite (seen_result h om [] x popt Hi); [|rewrite Hpar; exact Hl'|rewrite Hpar; exact Hp]. rewrite Hpar.
    unfold seen. cbn [om om_indep direct_om find]. fold om. rewrite Hpar.
    destruct (find (fun p => eqb (sname p) n && p_fixed (h p)) (sort_by sname ps)) as [q|] eqn:E.
    + apply find_some in E as [Hq E]. apply andb_prop in E as [E Ef]. apply (proj1 (eqb_true _ _)) in E. subst n.
      apply In_nth_error in Hq as (k & Hk). rewrite (result_lookup (sort_by sname ps) popt k q (p_value (h q)) Hn' Hk); [reflexivity|]. apply Hfix; assumption.
    + assert (Hcn : forall m, combine m (@nil R) = (@nil (string * R))) by (intros []; reflexivity). rewrite Hcn. reflexivity.
Qed.
Lemma direct_call h f ps x : NoDup (map sname ps) -> alphabetical sname ps -> List.length x = nfree h ps ->
  exists ob popt d, mm_init (direct_om f ps) [] = Ok ob /\ pack_output h ps x = Ok popt /\
    mm_call h (direct_om f ps) ob x [] = f d /\ NoDup (dkeys d) /\
    forall n, dget d n = option_map scalar (dget (result_params ps popt) n).
Proof.
  intros Hn Ha Hl. destruct (direct_any h f ps x Hn Hl) as (ob & popt & d & H1 & H2 & H3 & H4 & H5).
  rewrite (sort_by_id sname ps Ha) in H2. exists ob, popt, d. split; [exact H1|]. split; [exact H2|]. split; [exact H3|]. split; [exact H4|].
  intros n. rewrite H5, (sort_by_id sname ps Ha). reflexivity.
Qed.
Lemma direct_order h f ps x : NoDup (map sname ps) -> List.length x = nfree h ps ->
  exists ob popt d, mm_init (direct_om f ps) [] = Ok ob /\ pack_output h ps x = Ok popt /\
    mm_call h (direct_om f ps) ob x [] = f d /\ NoDup (dkeys d) /\ (forall n, In n (dkeys d) <-> In n (map sname ps)) /\
    (forall p, In p ps -> p_fixed (h p) = true -> dget d (sname p) = Some (scalar (p_value (h p))) /\ dget (result_params ps popt) (sname p) = Some (p_value (h p))) /\
    (forall p i k, free_at h (sort_by sname ps) p i k -> dget d (sname p) = option_map scalar (nth_error x i)) /\
    (forall p i k, free_at h ps p i k -> dget (result_params ps popt) (sname p) = nth_error x i).
Proof.
  intros Hn Hl. destruct (direct_any h f ps x Hn Hl) as (ob & popt' & d & H1 & H2 & H3 & H4 & H5).
  assert (Hperm := sort_by_perm sname ps).
  assert (Hn' : NoDup (map sname (sort_by sname ps))) by (eapply Permutation_NoDup; [apply Permutation_map; exact Hperm|exact Hn]).
  assert (Hl' : List.length x = nfree h (sort_by sname ps)).
  { rewrite Hl. unfold nfree, free_of_list. apply Permutation_length. apply Permutation_filter. exact Hperm. }
  destruct (pack_ok h ps x Hl) as (popt & Hp & L & F & G). destruct (pack_ok h _ x Hl') as (q & Hq & L' & F' & G'). rewrite H2 in Hq. inv Hq. rename q into popt'.
  exists ob, popt, d. split; [exact H1|]. split; [exact Hp|]. split; [exact H3|]. split; [exact H4|].
  assert (Hfree : forall qs po, NoDup (map sname qs) -> List.length x = nfree h qs -> (forall p i k, NoDup qs -> free_at h qs p i k -> nth_error po k = nth_error x i) ->
     forall p i k, free_at h qs p i k -> dget (result_params qs po) (sname p) = nth_error x i).
  { intros qs po Nq Lq Gq p i k Hf. assert (Hk := Gq p i k (NoDup_map_of _ _ Nq) Hf). destruct Hf as [Hi Hk'].
    assert (Hii : (i < List.length x)%nat) by (rewrite Lq; unfold nfree; apply nth_error_Some; congruence).
    destruct (nth_error x i) as [v|] eqn:E; [|apply nth_error_None in E; lia]. apply (result_lookup qs po k p v Nq Hk'). exact Hk. }
  split; [|split; [|split]].
  - intros n. rewrite <- dget_keys, H5. 
    assert (Hkeys := result_keys (sort_by sname ps) popt' Hn' L').
    transitivity (In n (dkeys (result_params (sort_by sname ps) popt'))).
    + rewrite <- dget_keys. destruct (dget (result_params (sort_by sname ps) popt') n); simpl; split; congruence.
    + rewrite Hkeys. apply in_perm_iff. apply Permutation_map. apply Permutation_sym. exact Hperm.
  - intros p Hin Hf. split.
    + rewrite H5. assert (Hin' : In p (sort_by sname ps)) by (apply in_sort_by; exact Hin). apply In_nth_error in Hin' as (k & Hk).
      rewrite (result_lookup _ popt' k p (p_value (h p)) Hn' Hk); [reflexivity|]. apply F'; assumption.
    + apply In_nth_error in Hin as (k & Hk). apply (result_lookup ps popt k p _ Hn Hk). apply F; assumption.
  - intros p i k Hf. rewrite H5. f_equal. apply (Hfree _ popt' Hn' Hl' G' p i k Hf).
  - intros p i k Hf. apply (Hfree ps popt Hn Hl G p i k Hf).
Qed.
Definition swap_f (d : dict string nd) : res nd := a <- dlook d "a" ;; Ok a.
Lemma direct_swapped : exists (f : dict string nd -> res nd) ps x ob popt,
  NoDup (map sname ps) /\ List.length x = nfree (fun _ => ex_free) ps /\
  mm_init (direct_om f ps) [] = Ok ob /\ pack_output (fun _ => ex_free) ps x = Ok popt /\
  (forall a b, f [("a", scalar a); ("b", scalar b)] = Ok (scalar a)) /\
  (exists v, mm_call (fun _ => ex_free) (direct_om f ps) ob x [] = Ok v /\ val v [] = 1) /\
  dget (result_params ps popt) "b" = Some 1 /\ dget (result_params ps popt) "a" = Some 2.
Proof.
  exists swap_f, [SPar "b"; SPar "a"], [1; 2].
  eexists _, _. split; [apply nodupb_iff; reflexivity|]. split; [reflexivity|]. split; [reflexivity|]. split; [reflexivity|].
  split; [intros; reflexivity|]. split; [|split; reflexivity].
  eexists. split; [cbv -[IZR Rplus Rmult Rinv Ropp]; reflexivity|reflexivity].
Qed.

(** ** packaging *)
Lemma jac_reaches : forall h cls ps j hess cons m, minimizer_init h cls ps (Some j) hess cons = Ok m -> is_gradient cls = true -> cls <> MINPACK -> NoDup ps ->
  exists w, pb_jac (execute_problem h m DNone DNone) = DFun w /\
    forall x a, j x = Ok a -> gradient_shaped (List.length ps) a ->
      exists g, w x = Ok g /\ shp g = [nfree h ps] /\ forall p i k, free_at h ps p i k -> val g [i] = gradient_entry a k.
Proof.
  intros h cls ps j hess cons m Hm Hg Hc Hn. rewrite (problem_jac _ _ _ _ _ _ _ Hm Hg). eexists. split; [reflexivity|].
  intros x a Hx Ha. destruct (resize_jac_ok h ps j x a Hx Ha Hn) as (g & H1 & H2 & H3). exists g. split; [|split; assumption]. destruct cls; try exact H1; contradiction.
Qed.
Lemma minpack_jac_reaches : forall h ps j hess cons m, minimizer_init h MINPACK ps (Some j) hess cons = Ok m -> NoDup ps ->
  exists w, pb_jac (execute_problem h m DNone DNone) = DFun w /\
    forall x a M, j x = Ok a -> shp a = [List.length ps; M] ->
      exists g, w x = Ok g /\ shp g = [nfree h ps; M] /\ forall p i k d, free_at h ps p i k -> val g [i; d] = val a [k; d].
Proof.
  intros h ps j hess cons m Hm Hn. rewrite (problem_jac _ _ _ _ _ _ _ Hm eq_refl). eexists. split; [reflexivity|].
  intros x a M Hx Ha. exact (resize_minpack_ok h ps j x a M Hx Ha Hn).
Qed.

Lemma nth_combine {A B} i : forall (l : list A) (m : list B) a b, nth_error l i = Some a -> nth_error m i = Some b -> nth_error (combine l m) i = Some (a, b).
Proof. induction i as [|i IH]; intros [|x l] [|y m] a b H1 H2; simpl in *; try discriminate; [congruence|]. apply IH; assumption. Qed.
Section ChainRuns.
  Context {O : Type} (no_options : O).
  Lemma chain_loop_runs h ps todo : forall guess l, chain_loop (O:=O) h ps todo guess = Ok l ->
    List.length l = List.length todo /\
    forall k ex o, nth_error todo k = Some (ex, o) -> exists g a, nth_error l k = Some (g, a) /\ ex o g = Ok a.
  Proof using.
    induction todo as [|[ex o] todo IH]; intros guess l H; simpl in H.
    - inv H. split; [reflexivity|]. intros [|k] ex o Hk; discriminate.
    - apply bind_Ok in H as (ans & Hans & H). apply bind_Ok in H as (popt & Hpo & H). apply bind_Ok in H as (rest & Hr & H). inv H.
      destruct (IH _ _ Hr) as [H0 Hk]. split; [simpl; lia|]. intros [|k] ex' o' H1; simpl in *.
      + inv H1. eauto.
      + apply (Hk k ex' o' H1).
  Qed.
  Lemma total_sum l : forall s n, foldM (fun s (a : list R * answer) => n <- of_opt TypeError (an_nit (snd a)) ;; Ok (s + n)%nat) s l = Ok n ->
    exists ks, map (fun a => an_nit (snd a)) l = map Some ks /\ n = (s + list_sum ks)%nat.
  Proof using.
    induction l as [|a l IH]; intros s n H; simpl in H.
    - inv H. exists []. split; [reflexivity|simpl; lia].
    - destruct (an_nit (snd a)) as [k|] eqn:E; simpl in H; [|discriminate]. destruct (IH _ _ H) as (ks & H1 & H2). exists (k :: ks). split; [simpl; rewrite H1, E; reflexivity|simpl; lia].
  Qed.
  Lemma chain_runs : forall h ps classes (ms : list (O -> list R -> res answer)) guess (kw : dict string O),
    no_indexed_names classes -> List.length ms = List.length classes -> (forall n, In n (dkeys kw) -> In n (chain_names classes)) ->
    exists s, chain_signature classes = Ok s /\
      forall runs final nit, chain_execute no_options h ps s ms guess kw = Ok (runs, final, nit) ->
        List.length runs = List.length ms /\
        (forall i n ex, nth_error classes i = Some n -> nth_error ms i = Some ex ->
           exists g a, nth_error runs i = Some (g, a) /\
             ex (match dget kw (if Nat.eqb (occurrence classes i) 1 then n else (n ++ "_" ++ string_of_nat (occurrence classes i))%string) with Some o => o | None => no_options end) g = Ok a) /\
        (exists g, nth_error runs (List.length runs - 1) = Some (g, final)) /\
        exists ks, map (fun r => an_nit (snd r)) runs = map Some ks /\ nit = list_sum ks.
  Proof using.
    intros h ps classes ms guess kw Hno Hlen Hkw. pose proof (chain_names_nodup _ Hno) as Hnd.
    destruct (proj1 (chain_signature_spec classes) Hnd) as (s & Hs & _ & _). exists s. split; [exact Hs|].
    intros runs final nit H. unfold chain_execute in H. destruct (chain_options_ok no_options classes s kw Hnd Hs Hkw) as (opts & Ho & Hol & Hon). rewrite Ho in H. cbn [bind] in H.
    apply bind_Ok in H as (l & Hl & H). apply bind_Ok in H as (fin & Hf & H). apply bind_Ok in H as (nn & Hnn & H). inv H.
    destruct (chain_loop_runs _ _ _ _ _ Hl) as [Hrl Hrun]. rewrite combine_length in Hrl.
    assert (Hrl' : List.length runs = List.length ms) by lia. split; [exact Hrl'|]. split; [|split].
    - intros i n ex Hi Hex. apply Hrun with (k := i). pose proof (chain_names_nth _ _ _ Hi) as Hc. specialize (Hon i _ Hc).
      unfold chain_name in Hon. apply nth_combine; assumption.
    - destruct fin as [g f]. exists g. simpl. destruct (nth_error (rev runs) 0) as [r|] eqn:E; [|discriminate]. simpl in Hf. inv Hf.
      clear -E. destruct runs as [|r0 runs] using rev_ind; [discriminate|]. rewrite rev_app_distr in E. simpl in E. inv E. rewrite app_length. simpl. rewrite nth_error_app2 by lia.
      replace (List.length runs + 1 - 1 - List.length runs)%nat with 0%nat by lia. reflexivity.
    - destruct (total_sum _ _ _ Hnn) as (ks & H1 & H2). exists ks. split; [exact H1|exact H2].
  Qed.
  Lemma chain_handover : forall h ps (todo : list ((O -> list R -> res answer) * O)) guess l,
    (forall p, In p ps -> p_fixed (h p) = false) -> NoDup (map sname ps) -> chain_loop h ps todo guess = Ok l ->
    (forall g a, In (g, a) l -> List.length (an_x a) = List.length ps) ->
    (forall g a, nth_error l 0 = Some (g, a) -> g = guess) /\
    forall k g a g' a', nth_error l k = Some (g, a) -> nth_error l (S k) = Some (g', a') -> g' = an_x a.
  Proof using.
    intros h ps todo guess l Hf Hn Hl Hx. destruct (chain_guesses h ps todo guess l Hl) as [H0 Hk]. split; [exact H0|].
    intros k g a g' a' H1 H2. destruct (Hk _ _ _ _ _ H1 H2) as (popt & Hp & ->). assert (Hlx := Hx _ _ (nth_error_In _ _ H1)).
    rewrite (pack_all_free h ps (an_x a) Hf Hlx) in Hp. inv Hp. apply result_values; assumption.
  Qed.
  Lemma chain_restart : forall h ps (todo : list ((O -> list R -> res answer) * O)) guess l,
    NoDup (map sname ps) -> chain_loop h ps todo guess = Ok l ->
    (forall g a, In (g, a) l -> List.length (an_x a) = nfree h ps) ->
    (forall g a, nth_error l 0 = Some (g, a) -> g = guess) /\
    forall n g a g' a', nth_error l n = Some (g, a) -> nth_error l (S n) = Some (g', a') ->
      List.length g' = List.length ps /\
      (forall k p, nth_error ps k = Some p -> p_fixed (h p) = true -> nth_error g' k = Some (p_value (h p))) /\
      (forall p i k, free_at h ps p i k -> nth_error g' k = nth_error (an_x a) i).
  Proof using.
    intros h ps todo guess l Hn Hl Hx. destruct (chain_guesses h ps todo guess l Hl) as [H0 Hk]. split; [exact H0|].
    intros k g a g' a' H1 H2. destruct (Hk _ _ _ _ _ H1 H2) as (popt & Hp & ->). assert (Hlx := Hx _ _ (nth_error_In _ _ H1)).
    destruct (pack_ok h ps (an_x a) Hlx) as (popt' & Hp' & L & F & G). rewrite Hp in Hp'. inv Hp'.
    rewrite result_values by assumption. split; [exact L|]. split; [exact F|]. intros p i j. apply G. apply (NoDup_map_of _ _ Hn).
  Qed.
End ChainRuns.

Lemma chain_fixed_length : exists h ps (todo : list ((unit -> list R -> res answer) * unit)) l,
  nfree h ps = 1%nat /\ chain_loop h ps todo [2] = Ok l /\
  exists g1 a1 g2 a2, nth_error l 0 = Some (g1, a1) /\ nth_error l 1 = Some (g2, a2) /\
    an_x a1 = [5] /\ g2 = [7; 5] /\ List.length g2 <> nfree h ps.
Proof.
  exists (fun p => if eqb p (SPar "a") then {| p_value := 7; p_min := None; p_max := None; p_fixed := true |} else ex_free).
  exists [SPar "a"; SPar "b"].
  exists [((fun _ _ => Ok {| an_x := [5]; an_nit := Some 1%nat |}), tt); ((fun _ _ => Ok {| an_x := [5]; an_nit := Some 1%nat |}), tt)].
  eexists. split; [reflexivity|]. split; [reflexivity|]. eexists _, _, _, _. split; [reflexivity|]. split; [reflexivity|]. split; [reflexivity|]. split; [reflexivity|]. discriminate.
Qed.

Lemma constraint_reaches : forall cls h ps cs, is_constrained cls = true -> NoDup ps ->
  (forall c, In c cs -> c_rel c = REq \/ c_rel c = RGe) ->
  exists l, scipy_constraints cls (filter (fun p => p_fixed (h p)) ps) ps (map CMinimize cs) = Ok l /\ List.length l = List.length cs /\
    forall i c, nth_error cs i = Some c -> exists s, nth_error l i = Some s /\
      (sc_type s = CTeq <-> c_rel c = REq) /\ (sc_type s = CTineq <-> c_rel c = RGe) /\ sc_fun s = c_fun c /\
      (is_gradient cls = true -> forall j, c_jac c = Some j -> exists w, sc_jac s = Some w /\
         forall x a, j x = Ok a -> gradient_shaped (List.length ps) a ->
           exists g, w x = Ok g /\ shp g = [nfree h ps] /\ forall p n k, free_at h ps p n k -> val g [n] = gradient_entry a k) /\
      (c_jac c = None -> sc_jac s = None).
Proof.
  intros cls h ps cs _ Hn Hcs. rewrite (constraints_ok cls _ ps cs Hcs). eexists. split; [reflexivity|]. split; [apply map_length|].
  intros i c Hi. eexists. split; [apply map_nth_error; exact Hi|]. cbn [sc_type sc_fun sc_jac].
  destruct (Hcs c (nth_error_In _ _ Hi)) as [Hr|Hr]; rewrite Hr; (split; [split; congruence|]); (split; [split; congruence|]); (split; [reflexivity|]);
    (split; [|intros Hj; rewrite Hj; destruct (is_gradient cls); reflexivity]); intros Hg j Hj; rewrite Hg, Hj; cbn [option_map]; eexists; (split; [reflexivity|]);
    intros x a Hx Ha; exact (resize_jac_ok h ps j x a Hx Ha Hn).
Qed.
Lemma vector_constraint : forall cls h ps c cs, is_gradient cls = true -> NoDup ps -> List.length ps <> 1%nat -> (forall c', In c' (c :: cs) -> c_rel c' = REq \/ c_rel c' = RGe) ->
  forall j x a M, c_jac c = Some j -> j x = Ok a -> shp a = [M; List.length ps] -> M <> 1%nat ->
  exists l s w g, scipy_constraints cls (filter (fun p => p_fixed (h p)) ps) ps (map CMinimize (c :: cs)) = Ok l /\ nth_error l 0 = Some s /\ sc_jac s = Some w /\
    w x = Ok g /\ shp g = [M; nfree h ps] /\ forall p i k d, free_at h ps p i k -> val g [d; i] = val a [d; k].
Proof.
  intros cls h ps c cs Hg Hn Hl Hcs j x a M Hj Hx Ha HM. rewrite (constraints_ok cls _ ps (c :: cs) Hcs). cbn [map]. eexists _, _, _.
  destruct (resize_jac_vector h ps j x a M Hx Ha HM Hl Hn) as (g & H1 & H2 & H3). exists g. split; [reflexivity|]. split; [reflexivity|]. cbn [sc_jac]. rewrite Hg, Hj. split; [reflexivity|]. auto.
Qed.
Lemma constraint_le : forall cls fixed ps c cs, c_rel c = RLe ->
  scipy_constraints cls fixed ps (CRelational RLe (Ok c) :: cs) = Raise KeyError /\ scipy_constraints cls fixed ps (CMinimize c :: cs) = Raise KeyError.
Proof. intros cls fixed ps c cs Hc. split; [reflexivity|]. unfold scipy_constraints. cbn [mapM]. unfold scipy_con_of at 1. cbn [bind]. rewrite Hc. reflexivity. Qed.
Lemma trust_own : forall cons i c, nth_error cons i = Some c -> exists n, nth_error (trust_constraints cons) i = Some n /\
  nc_fun n = sc_fun c /\ nc_jac n = sc_jac c /\ (sc_type c = CTeq -> nc_upper n = Some 0) /\ (sc_type c = CTineq -> nc_upper n = None).
Proof.
  intros cons i c Hi. unfold trust_constraints. eexists. split; [apply map_nth_error; exact Hi|]. cbn. split; [reflexivity|]. split; [reflexivity|]. destruct (sc_type c); split; congruence.
Qed.
Lemma trust_single : forall c f x v, sc_hess c = Some f -> exists n g, trust_constraints [c] = [n] /\ nc_hess n = Some g /\ g x v = (a <- f x ;; nmul a (scalar v)).
Proof. intros c f x v Hf. unfold trust_constraints. simpl. rewrite Hf. eexists _, _. split; [reflexivity|]. split; [reflexivity|]. unfold call_hess. rewrite Hf. reflexivity. Qed.
Lemma trust_last : forall cons last i c f x v, nth_error (cons ++ [last]) i = Some c -> sc_hess c = Some f ->
  exists n g, nth_error (trust_constraints (cons ++ [last])) i = Some n /\ nc_hess n = Some g /\ g x v = call_hess (Some last) x v.
Proof.
  intros cons la i c f x v Hi Hf. unfold trust_constraints. rewrite rev_app_distr. simpl rev. simpl app. eexists _, _. split; [apply map_nth_error; exact Hi|]. cbn. rewrite Hf. split; [reflexivity|]. reflexivity.
Qed.

(** ** capabilities *)
Lemma gradient_uses c : is_gradient c = uses_jacobian c. Proof. destruct c; reflexivity. Qed.
Lemma hessian_uses c : is_hessian c = uses_hessian c. Proof. destruct c; reflexivity. Qed.
Lemma bounded_uses c : is_bounded c = uses_bounds c. Proof. destruct c; reflexivity. Qed.
Lemma constrained_uses c : is_constrained c = uses_constraints c. Proof. destruct c; reflexivity. Qed.
Lemma Forall2_at {A B} (P : A -> B -> Prop) l l' : Forall2 P l l' -> forall i a, nth_error l i = Some a -> exists b, nth_error l' i = Some b /\ P a b.
Proof. induction 1 as [|a b l l' Hab _ IH]; intros [|i] x Hx; simpl in *; try discriminate; [inv Hx; eauto|apply IH; exact Hx]. Qed.
Lemma trust_dec (c : mclass) : c = TrustConstr \/ c <> TrustConstr. Proof. destruct c; (left; reflexivity) || (right; discriminate). Qed.
Lemma pb_cons_eq h m uj uh : pb_cons (execute_problem h m uj uh) = if is_constrained (mi_class m) then wrapped_constraints m else [].
Proof. unfold execute_problem. destruct (mi_class m); try reflexivity. destruct (trust_strategy (mi_jacobian m) (mi_hessian m)); reflexivity. Qed.
Lemma pb_routine_eq h m uj uh : pb_routine (execute_problem h m uj uh) = routine_of (mi_class m).
Proof. unfold execute_problem. destruct (mi_class m); try reflexivity. destruct (trust_strategy (mi_jacobian m) (mi_hessian m)); reflexivity. Qed.
Lemma constraints_handed : forall h cls ps jac hess cs m uj uh,
  minimizer_init h cls ps jac hess (map CMinimize cs) = Ok m -> is_constrained cls = true -> NoDup ps ->
  let l := pb_cons (execute_problem h m uj uh) in
  List.length l = List.length cs /\
  forall i c, nth_error cs i = Some c -> exists s, nth_error l i = Some s /\ (forall v, imposes s v <-> demands (c_rel c) v) /\ handed_fun s = c_fun c /\
    (is_gradient cls = true -> forall j, c_jac c = Some j -> exists w, handed_jac s = Some w /\
       forall x a, j x = Ok a -> gradient_shaped (List.length ps) a ->
         exists g, w x = Ok g /\ shp g = [nfree h ps] /\ forall p n k, free_at h ps p n k -> val g [n] = gradient_entry a k) /\
    (c_jac c = None -> handed_jac s = None).
Proof.
  intros h cls ps jac hess cs m uj uh H Hc Hn. cbv zeta. unfold minimizer_init in H. rewrite Hc in H. apply bind_Ok in H as (l & Hl & H).
  assert (Hcs : forall c, In c cs -> c_rel c = REq \/ c_rel c = RGe).
  { intros c Hin. unfold scipy_constraints in Hl. apply mapM_Ok in Hl. apply In_nth_error in Hin as (i & Hi).
    destruct (Forall2_at _ _ _ Hl i (CMinimize c) (map_nth_error CMinimize i cs Hi)) as (s & _ & Hs). unfold scipy_con_of in Hs. cbn [bind] in Hs. destruct (c_rel c); cbn in Hs; try discriminate; auto. }
  destruct (constraint_reaches cls h ps cs Hc Hn Hcs) as (l' & Hl' & Hlen & Hr). rewrite Hl in Hl'. inv Hl'.
  inv H. rewrite pb_cons_eq. cbn [mi_class mi_cons]. rewrite Hc. unfold wrapped_constraints. cbn [mi_class mi_cons].
  destruct (trust_dec cls) as [->|Ht]; [|assert (E : forall A (x y : A), match cls with TrustConstr => x | _ => y end = y) by (intros; destruct cls; congruence); rewrite E; clear E].
  - unfold trust_constraints. rewrite !map_length. split; [exact Hlen|]. intros i c Hi. destruct (Hr i c Hi) as (s & Hs & Heq & Hge & Hf & Hj & Hj0).
    eexists. split; [rewrite map_map; apply map_nth_error; exact Hs|]. cbn [imposes handed_fun handed_jac nc_fun nc_jac nc_upper].
    split; [|split; [exact Hf|split; [exact Hj|exact Hj0]]].
    intros v. destruct (Hcs c (nth_error_In _ _ Hi)) as [E|E]; rewrite E; cbn [demands]; [rewrite (proj2 Heq E)|rewrite (proj2 Hge E)]; split; intros; lra.
  - rewrite map_length. split; [exact Hlen|]. intros i c Hi. destruct (Hr i c Hi) as (s & Hs & Heq & Hge & Hf & Hj & Hj0).
    exists (HDict s). split; [apply map_nth_error; exact Hs|]. cbn [imposes handed_fun handed_jac].
    split; [|split; [exact Hf|split; [exact Hj|exact Hj0]]].
    intros v. destruct (Hcs c (nth_error_In _ _ Hi)) as [E|E]; rewrite E; cbn [demands]; [rewrite (proj2 Heq E)|rewrite (proj2 Hge E)]; split; intros; lra.
Qed.
