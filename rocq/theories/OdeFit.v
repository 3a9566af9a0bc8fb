(** * OdeFit: what the objectives get from an ODEModel. *)
From Coq Require Import Reals Lra Lia Sorted FunctionalExtensionality.
From Verif Require Import PyBase PyFacts Signature SignatureFacts Expr Model ModelSpec ModelFacts ExprR Jacobian JacAnalysis NumPy NumFacts Objective ObjSpec ObjFacts ExprCallFacts FiniteDiff FDSpec FDFacts FDMain Ode OdeSpec OdeFacts OdeMain OdeModel Minimizer MinSpec MinLemmas Fit FitSpec EndSpec ArrFacts GuessMain GenSpec GenFit OdeFitSpec.
Local Open Scope R_scope.
Local Open Scope list_scope.

(** *** conversion of keyword arguments *)
Lemma ovals_get d d' : ovals_of d = Ok d' -> dkeys d' = dkeys d /\ forall n v, dget d' n = Some v <-> exists a, dget d n = Some a /\ oval_of a = Ok v.
Proof.
  unfold ovals_of. revert d'. induction d as [|[k a] d IH]; intros d' H; cbn [mapM] in H.
  - injection H as <-. split; [reflexivity|]. intros n v. cbn. split; [discriminate|intros (a & E & _); discriminate].
  - apply bind_Ok in H as (kv & Hkv & H). apply bind_Ok in Hkv as (v & Hv & Hkv). injection Hkv as <-. apply bind_Ok in H as (r & Hr & H). injection H as <-.
    destruct (IH r Hr) as (Hk & Hg). cbn [fst snd] in *. split; [cbn [dkeys map fst]; f_equal; exact Hk|]. intros n w. cbn [dget].
    destruct (eq_dec n k) as [->|]; [|apply Hg]. split; [intros E; injection E as <-; eauto|intros (a' & E & Ha); injection E as <-; congruence].
Qed.
Lemma oval_error a e : oval_of a = Raise e -> e = ValueError.
Proof. unfold oval_of. destruct (shp a) as [|n [|k l]]; congruence. Qed.
Lemma ovals_error d e : ovals_of d = Raise e -> e = ValueError /\ exists n a, In (n, a) d /\ oval_of a = Raise ValueError.
Proof.
  unfold ovals_of. induction d as [|[k a] d IH]; cbn [mapM]; [discriminate|]. cbn [fst snd]. destruct (oval_of a) as [v|e'] eqn:E; cbn [bind].
  - destruct (mapM _ d) as [r|e'']; cbn [bind]; [discriminate|]. intros H. injection H as ->. destruct (IH eq_refl) as (He & n & b & Hb & Ho). split; [exact He|exists n, b; split; [right; exact Hb|exact Ho]].
  - intros H. injection H as ->. pose proof (oval_error a e E) as ->. split; [reflexivity|]. exists k, a. split; [left; reflexivity|exact E].
Qed.
Lemma ovals_exist d : (forall n a, In (n, a) d -> exists v, oval_of a = Ok v) -> exists d', ovals_of d = Ok d'.
Proof.
  intros H. destruct (ovals_of d) as [d'|e] eqn:E; [eauto|]. destruct (ovals_error d e E) as (_ & n & a & Hin & Ha). destruct (H n a Hin) as (v & Hv). congruence.
Qed.
Lemma ovals_same d1 d2 : NoDup (dkeys d1) -> NoDup (dkeys d2) -> (forall n, dget d1 n = dget d2 n) ->
  (ovals_of d1 = Raise ValueError /\ ovals_of d2 = Raise ValueError) \/ exists d1' d2', ovals_of d1 = Ok d1' /\ ovals_of d2 = Ok d2' /\ forall n, dget d1' n = dget d2' n.
Proof.
  intros H1 H2 He. assert (Hbad : forall x y : dict string nd, NoDup (dkeys x) -> (forall n, dget x n = dget y n) -> forall e, ovals_of x = Raise e -> exists e', ovals_of y = Raise e').
  { intros x y Hx Hxy e E. destruct (ovals_error x e E) as (_ & n & a & Hin & Ha). destruct (ovals_of y) as [y'|e'] eqn:Ey; [|eauto]. exfalso.
    apply (In_dget x n a Hx) in Hin. rewrite Hxy in Hin. apply dget_In in Hin. unfold ovals_of in Ey. apply mapM_Ok in Ey.
    apply In_nth_error in Hin as (i & Hi). destruct (Forall2_at _ _ _ Ey i _ Hi) as (b & _ & Hb). cbn [fst snd] in Hb. rewrite Ha in Hb. discriminate. }
  destruct (ovals_of d1) as [d1'|e1] eqn:E1.
  - destruct (ovals_of d2) as [d2'|e2] eqn:E2; [|exfalso; destruct (Hbad d2 d1 H2 (fun n => eq_sym (He n)) e2 E2) as (e' & E'); congruence].
    right. exists d1', d2'. split; [reflexivity|]. split; [reflexivity|]. intros n. pose proof (ovals_get d1 d1' E1) as (_ & G1). pose proof (ovals_get d2 d2' E2) as (_ & G2).
    destruct (dget d1' n) as [v|] eqn:D1.
    + symmetry. apply G2. apply G1 in D1 as (a & Ha & Hv). exists a. rewrite <- He. auto.
    + destruct (dget d2' n) as [v|] eqn:D2; [|reflexivity]. apply G2 in D2 as (a & Ha & Hv). rewrite <- He in Ha. rewrite (proj2 (G1 n v)) in D1 by eauto. discriminate.
  - left. destruct (Hbad d1 d2 H1 He e1 E1) as (e2 & E2). destruct (ovals_error d1 e1 E1) as (-> & _). destruct (ovals_error d2 e2 E2) as (-> & _). auto.
Qed.

(** Supplying by name. *)
Lemma supplies_by_name {V} (l : list (string * V)) (d : dict string V) : NoDup (map fst l) -> NoDup (dkeys d) ->
  (forall n v, dget d n = Some v <-> In (n, v) l) -> supplies l [] d.
Proof.
  intros Hl Hd H. exists 0%nat. split; [reflexivity|]. cbn [skipn]. apply NoDup_Permutation.
  - apply (NoDup_map_of fst). exact Hd.
  - apply (NoDup_map_of fst). exact Hl.
  - intros [n v]. rewrite <- H. split; [apply In_dget; exact Hd|apply dget_In].
Qed.

Lemma combine_get (vs : list sym) (rows : list (list R)) (phi : sym -> R -> R) tr v : In v vs ->
  dget (combine vs (map nd_row (map (fun y => map (phi y) tr) vs))) v = Some (nd_row (map (phi v) tr)).
Proof.
  intros Hv. rewrite map_map. induction vs as [|w vs IH]; [destruct Hv|]. cbn [map combine dget]. destruct (eq_dec v w) as [->|E]; [reflexivity|].
  destruct Hv as [->|Hv]; [exfalso; apply E; reflexivity|apply IH; exact Hv].
Qed.
Lemma keys_combine_map {V} (vs : list sym) (g : sym -> V) : dkeys (combine vs (map g vs)) = vs.
Proof. induction vs as [|v vs IH]; [reflexivity|]. cbn [map combine dkeys fst]. f_equal. exact IH. Qed.
Lemma filter_self (l : list sym) : filter (fun v => inb v l) l = l.
Proof. assert (H : forall l', (forall x, In x l' -> In x l) -> filter (fun v => inb v l) l' = l'); [|apply H; auto].
  induction l' as [|x l' IH]; intros Hs; [reflexivity|]. cbn [filter]. rewrite (proj2 (inb_In x l)) by (apply Hs; left; reflexivity). f_equal. apply IH. intros y Hy. apply Hs. right; exact Hy. Qed.
Lemma combine_get_nth {V} (vs : list sym) (l : list V) c v d : NoDup vs -> nth_error vs c = Some v -> List.length l = List.length vs -> dget (combine vs l) v = Some (nth c l d).
Proof.
  intros Hn Hc Hl. apply (PyFacts.dget_combine_nth _ _ c); [exact Hn|exact Hc|]. apply nth_error_nth'. rewrite Hl. apply nth_error_Some. congruence.
Qed.

Section OdeOm.
  Context (S : ivp -> res ivp_result) (simp : expr -> expr) (ord : list sym -> list sym) (items : dict odkey expr)
    (initial : dict sym oinit) (user : dict string optval) (t : sym) (m : ode).
  Hypothesis Ho : set_order ord.
  Hypothesis Hf : first_order items t.
  Hypothesis Hin : initial_ok initial.
  Hypothesis Hn : ode_names items initial t.
  Hypothesis Hm : init_ode ord items initial user = Ok m.
  Let om := om_of_ode S simp m.

  Lemma ode_fields : o_indep m = [t] /\ o_sig m = required (map sname (t :: o_params m)) /\ NoDup (map sname (t :: o_params m)) /\ List.length (o_dict m) = List.length (o_dep m).
  Proof using Ho Hf Hin Hn Hm.
    destruct (init_ode_inv ord items initial user t Ho Hf Hin Hn m Hm) as (Hd & _ & _ & Hi & Hdep & _ & _ & Hp & Hsg). split; [exact Hi|]. split; [exact Hsg|]. split.
    - rewrite Hp. apply (args_nodup items initial t Hf Hin Hn); [apply (sorted_nodup ord Ho), NoDup_dedup|]. intros p. apply (all_params_iff ord items initial Ho).
    - rewrite Hd, Hdep. rewrite <- !(Permutation_length (sort_by_perm _ _)). unfold unknowns. rewrite map_length. reflexivity.
  Qed.
  Lemma ode_interface : interface om.
  Proof using Ho Hf Hin Hn Hm.
    destruct ode_fields as (Hi & Hsg & Hnd & _). split; [|split].
    - cbn [om om_of_ode om_names om_indep om_params]. rewrite Hsg, sp_name_required, Hi. reflexivity.
    - cbn [om om_of_ode om_indep om_params]. rewrite Hi. exact Hnd.
    - exact (nodup_dep ord items initial user t Ho Hf Hin Hn m Hm).
  Qed.
  Lemma ode_by_keyword : by_keyword om.
  Proof using.
    intros d1 d2 H1 H2 He. split; [|split; [|discriminate]].
    - cbn [om om_of_ode om_call]. unfold ode_om_call. destruct (ovals_same d1 d2 H1 H2 He) as [[-> ->]|(d1' & d2' & -> & -> & Hg)]; [reflexivity|]. cbn [bind].
      unfold ode_call, ode_columns. rewrite (sig_bind_keywords (o_sig m) d1' d2' Hg). reflexivity.
    - intros f E. injection E as <-. unfold ode_om_jac, finite_difference. rewrite (sig_bind_keywords _ d1 d2 He). reflexivity.
  Qed.
  Lemma ode_callable : callable om.
  Proof using Ho Hf Hin Hn Hm. split; [exact ode_interface|exact ode_by_keyword]. Qed.
  Lemma t_not_par : is_par t = false.
  Proof using Hf. destruct Hf as (_ & _ & _ & H & _). exact H. Qed.
  Lemma params_nodup : NoDup (o_params m).
  Proof using Ho Hf Hin Hn Hm. destruct ode_fields as (_ & _ & H & _). cbn [map] in H. apply NoDup_cons_iff in H as [_ H]. exact (NoDup_map_of _ _ H). Qed.

  (** The call reports the values of [phi] at the times [tr] if the data hold the times [a]. *)
  Definition calls_report (a : nd) (tr : list R) (theta : sym -> R) (phi : sym -> R -> R) : Prop :=
    forall args kw, supplies (call_values t (VArr (times a)) (o_params m) theta) args kw ->
      exists o, ode_call S simp m args kw = Ok o /\ reports items phi o tr.
  Lemma call_outputs args kw o phi tr : ode_call S simp m args kw = Ok o -> reports items phi o tr -> mo_vars o = o_dep m /\ mo_out o = map (fun y => map (phi y) tr) (o_dep m).
  Proof using.
    intros Hc (_ & _ & Hr & _). unfold ode_call in Hc. apply bind_Ok in Hc as (cols & _ & Hc). injection Hc as <-. cbn [mo_vars mo_out] in *. split; [reflexivity|exact Hr].
  Qed.
  Lemma time_array a N : shp a = [N] -> oval_of a = Ok (VArr (times a)).
  Proof using. intros H. unfold oval_of, times. rewrite H. reflexivity. Qed.

  Context (Y : sym -> option nd) (a : nd) (N : nat) (tr : list R).
  Hypothesis HY : Y t = Some a.
  Hypothesis Ha : shp a = [N].
  Hypothesis Htr : List.length tr = N.

  Lemma ode_inputs theta d : inputs_for om Y theta d -> exists d', ovals_of d = Ok d' /\ supplies (call_values t (VArr (times a)) (o_params m) theta) [] d'.
  Proof using Ho Hf Hin Hn Hm HY Ha.
    intros [Hd Hi]. destruct ode_fields as (Eti & _ & Hnd & _).
    assert (Hv : forall n b, dget d n = Some b -> (n = sname t /\ b = a) \/ exists p, In p (o_params m) /\ sname p = n /\ b = scalar (theta p)).
    { intros n b Hb. apply Hi in Hb. cbn [om om_of_ode om_indep om_params] in Hb. rewrite Eti in Hb. destruct Hb as [(v & [<-|[]] & Hs & Hb)|Hb]; [left; split; [congruence|congruence]|right; exact Hb]. }
    destruct (ovals_exist d) as (d' & Hd').
    { intros n b Hb. apply (In_dget d n b Hd) in Hb. destruct (Hv n b Hb) as [(_ & ->)|(p & _ & _ & ->)]; [exists (VArr (times a)); exact (time_array a N Ha)|exists (VNum (theta p)); reflexivity]. }
    exists d'. split; [exact Hd'|]. destruct (ovals_get d d' Hd') as (Hk & Hg). apply supplies_by_name.
    - unfold call_values. cbn [map fst]. rewrite map_map. cbn [fst]. exact Hnd.
    - unfold dkeys in *. rewrite Hk. exact Hd.
    - intros n v. rewrite Hg. unfold call_values. cbn [In]. rewrite in_map_iff. split.
      + intros (b & Hb & Hvb). destruct (Hv n b Hb) as [(-> & ->)|(p & Hp & <- & ->)].
        * left. rewrite (time_array a N Ha) in Hvb. congruence.
        * right. exists p. split; [|exact Hp]. cbn [oval_of shp scalar val] in Hvb. unfold oval_of, scalar in Hvb. cbn [shp val] in Hvb. congruence.
      + intros [E|(p & E & Hp)].
        * injection E as <- <-. exists a. split; [|exact (time_array a N Ha)]. apply Hi. left. exists t. cbn [om om_of_ode om_indep]. rewrite Eti. split; [left; reflexivity|]. auto.
        * injection E as <- <-. exists (scalar (theta p)). split; [|reflexivity]. apply Hi. right. exists p. auto.
  Qed.

  Lemma ode_predicts theta phi : calls_report a tr theta phi -> predicts om Y (fun _ => [N]) theta (fun v i => phi v (nth (hd 0%nat i) tr 0)).
  Proof using Ho Hf Hin Hn Hm HY Ha Htr.
    intros Hc d Hd. destruct (ode_inputs theta d Hd) as (d' & Hd' & Hs). destruct (Hc [] d' Hs) as (o & Hoc & Hr). destruct (call_outputs [] d' o phi tr Hoc Hr) as (Hvars & Hout).
    exists (combine (o_dep m) (map nd_row (mo_out o))). split.
    { cbn [om om_of_ode om_call]. unfold ode_om_call. rewrite Hd'. cbn [bind]. rewrite Hoc. cbn [bind]. rewrite Hvars. reflexivity. }
    rewrite Hout. split.
    - unfold lists_dependent. cbn [om om_of_ode om_dep]. rewrite map_map, keys_combine_map. apply filter_self.
    - intros v Hv. cbn [om om_of_ode om_dep] in Hv. unfold entry. rewrite (combine_get (o_dep m) (mo_out o) phi tr v Hv). cbn [nd_row shp val]. split; [rewrite map_length, Htr; reflexivity|].
      intros i Hi. rewrite indices1 in Hi. apply in_map_iff in Hi as (k & <- & Hk). apply in_seq in Hk. cbn [hd].
      rewrite (nth_indep _ 0 (phi v 0)) by (rewrite map_length, Htr; clear -Hk; lia). apply map_nth.
  Qed.

  (** *** eval_jacobian *)
  Context (Phi : (sym -> R) -> sym -> R -> R).
  Let ps := o_params m.
  Definition ode_stencil_solved (theta : sym -> R) : Prop :=
    forall p k, In p ps -> (1 <= k <= 3)%nat -> forall x, x = theta p + INR k * step_of step_size (theta p) \/ x = theta p - INR k * step_of step_size (theta p) ->
      calls_report a tr (with_value theta p x) (Phi (with_value theta p x)).
  Definition vector_value (theta : sym -> R) (xs : list R) : sym -> R := fun s => match dget (combine ps xs) s with Some x => x | None => theta s end.
  Lemma vector_entry theta j p x : nth_error ps j = Some p -> vector_value theta (with_entry (map theta ps) j x) = with_value theta p x.
  Proof using Ho Hf Hin Hn Hm.
    intros Hj. apply functional_extensionality. intros s. unfold vector_value, with_value. pose proof params_nodup as Hnd. fold ps in Hnd.
    assert (Hlen : List.length (with_entry (map theta ps) j x) = List.length ps) by (rewrite with_entry_length; apply map_length).
    destruct (dget (combine ps (with_entry (map theta ps) j x)) s) as [y|] eqn:E.
    - apply dget_In in E. apply In_nth_error in E as (i & Hi). rewrite nth_error_combine in Hi. destruct (nth_error ps i) as [q|] eqn:Hq; [|discriminate]. destruct (nth_error (with_entry _ _ _) i) as [z|] eqn:Hz; [|discriminate].
      injection Hi as -> ->. assert (Hil : (i < List.length (map theta ps))%nat) by (rewrite map_length; apply nth_error_Some; congruence).
      apply (nth_error_nth _ _ 0) in Hz. rewrite with_entry_nth in Hz by exact Hil. destruct (eq_dec s p) as [->|Hne].
      + assert (i = j). { apply (proj1 (NoDup_nth_error ps) Hnd); [rewrite map_length in Hil; exact Hil|congruence]. } subst i. rewrite Nat.eqb_refl in Hz. congruence.
      + assert (Hij : i <> j) by (intros ->; apply Hne; congruence). apply Nat.eqb_neq in Hij. rewrite Hij in Hz. rewrite <- Hz. rewrite (nth_error_nth _ _ 0 (map_nth_error theta i ps Hq)). reflexivity.
    - destruct (eq_dec s p) as [->|Hne]; [exfalso|reflexivity]. apply dget_None in E. apply E. rewrite dkeys_combine by (symmetry; exact Hlen). exact (nth_error_In _ _ Hj).
  Qed.
  Lemma stencil_reports theta xs : ode_stencil_solved theta -> stencil step_size (map theta ps) xs -> List.length xs = List.length ps /\ calls_report a tr (vector_value theta xs) (Phi (vector_value theta xs)).
  Proof using Ho Hf Hin Hn Hm.
    intros Hs (j & k & Hj & Hk & Hx). rewrite map_length in Hj. destruct (nth_error ps j) as [p|] eqn:Hp; [|apply nth_error_None in Hp; clear -Hp Hj; lia].
    cbv zeta in Hx. rewrite (nth_error_nth _ _ 0 (map_nth_error theta j ps Hp)) in Hx. split; [destruct Hx as [->| ->]; rewrite with_entry_length; apply map_length|].
    destruct Hx as [->| ->]; rewrite (vector_entry theta j p _ Hp); apply (Hs p k (nth_error_In _ _ Hp) Hk); auto.
  Qed.
  Lemma positional_ovals theta xs : List.length xs = List.length ps -> mapM oval_of ([a] ++ map scalar xs) = Ok (map snd (call_values t (VArr (times a)) ps (vector_value theta xs))).
  Proof using Ho Hf Hin Hn Hm Ha.
    intros Hl. unfold call_values. cbn [app mapM map snd]. rewrite (time_array a N Ha). cbn [bind]. rewrite mapM_of_map, map_map. cbn [snd].
    assert (E : mapM (fun x => oval_of (scalar x)) xs = Ok (map VNum xs)) by (apply mapM_map; reflexivity). rewrite E. cbn [bind]. do 2 f_equal.
    apply (nth_ext _ _ (VNum 0) (VNum 0)); [rewrite !map_length; exact Hl|]. rewrite map_length. intros i Hi. rewrite (map_nth VNum).
    destruct (nth_error ps i) as [p|] eqn:Hp; [|apply nth_error_None in Hp; clear -Hp Hi Hl; lia].
    rewrite (nth_error_nth _ _ (VNum 0) (map_nth_error (fun q => VNum (vector_value theta xs q)) i ps Hp)). f_equal. unfold vector_value.
    rewrite (PyFacts.dget_combine_nth _ _ i p (nth i xs 0) params_nodup Hp); [reflexivity|apply nth_error_nth'; exact Hi].
  Qed.
  Definition ode_F (theta : sym -> R) (xs : list R) (c : nat) : nd := nd_row (map (Phi (vector_value theta xs) (nth c (o_dep m) t)) tr).
  Lemma ode_evaluates theta : ode_stencil_solved theta -> evaluates (ode_gmodel S simp m) [a] (fun _ => [N]) (ode_F theta) step_size (map theta ps).
  Proof using Ho Hf Hin Hn Hm Ha Htr.
    intros Hs xs Hx. destruct (stencil_reports theta xs Hs Hx) as (Hl & Hc). split; [|intros c _; cbn [ode_F nd_row shp]; unfold ode_F, nd_row; cbn [shp]; rewrite map_length, Htr; reflexivity].
    cbn [ode_gmodel g_call g_len]. rewrite (positional_ovals theta xs Hl). cbn [bind].
    destruct (Hc (map snd (call_values t (VArr (times a)) ps (vector_value theta xs))) []) as (o & Hoc & Hr).
    { exists (List.length (call_values t (VArr (times a)) (o_params m) (vector_value theta xs))). rewrite firstn_all, skipn_all. split; [reflexivity|constructor]. }
    rewrite Hoc. cbn [bind]. destruct (call_outputs _ _ o _ tr Hoc Hr) as (_ & ->). f_equal. destruct ode_fields as (_ & _ & _ & Hlen).
    unfold ode_len. rewrite Hlen. apply (nth_ext _ _ (scalar 0) (scalar 0)); [rewrite !map_length, seq_length; reflexivity|]. rewrite !map_length. intros c Hcl.
    rewrite map_map. destruct (nth_error (o_dep m) c) as [v|] eqn:Hv; [|apply nth_error_None in Hv; clear -Hv Hcl; lia].
    rewrite (nth_error_nth _ _ (scalar 0) (map_nth_error (fun x => nd_row (map (Phi (vector_value theta xs) x) tr)) c (o_dep m) Hv)).
    rewrite (nth_indep _ (scalar 0) (ode_F theta xs 0)) by (rewrite map_length, seq_length; exact Hcl). rewrite map_nth, seq_nth by exact Hcl. cbn [Nat.add]. unfold ode_F.
    rewrite (nth_error_nth _ _ t Hv). reflexivity.
  Qed.
  Definition ode_jacobian (theta : sym -> R) (v : sym) (i : list nat) (k : nat) : R :=
    let p := nth k ps t in
    central6 (fun u => Phi (with_value theta p u) v (nth (hd 0%nat i) tr 0)) (theta p) (step_of step_size (theta p)).
  Lemma ode_inputs_fd theta d : inputs_for om Y theta d -> supplies (combine (g_indep (ode_gmodel S simp m) ++ g_params (ode_gmodel S simp m)) ([a] ++ map scalar (map theta ps))) [] d.
  Proof using Ho Hf Hin Hn Hm HY.
    intros [Hd Hi]. destruct ode_fields as (Eti & _ & Hnd & _). cbn [ode_gmodel g_indep g_params]. rewrite Eti. cbn [map app combine].
    assert (Ec : combine (map sname (o_params m)) (map scalar (map theta ps)) = map (fun p => (sname p, scalar (theta p))) ps).
    { unfold ps. generalize (o_params m). clear. induction l as [|p l IH]; [reflexivity|]. cbn [map combine]. f_equal. exact IH. }
    rewrite Ec. apply supplies_by_name; [cbn [map fst]; rewrite map_map; cbn [fst]; exact Hnd|exact Hd|].
    intros n b. rewrite Hi. cbn [In om om_of_ode om_indep om_params]. rewrite Eti, in_map_iff. split.
    - intros [(v & [<-|[]] & Hs & Hb)|(p & Hp & Hs & ->)]; [left; congruence|right; exists p; split; [congruence|exact Hp]].
    - intros [E|(p & E & Hp)]; injection E as <- <-; [left; exists t; split; [left; reflexivity|auto]|right; exists p; auto].
  Qed.
  Lemma ode_predicts_jac theta : ps <> [] -> ode_stencil_solved theta -> predicts_jac om Y (fun _ => [N]) theta (ode_jacobian theta).
  Proof using Ho Hf Hin Hn Hm HY Ha Htr.
    intros Hne Hs d Hd. destruct ode_fields as (Eti & _ & Hnd & Hlen).
    assert (Hgn : NoDup (g_indep (ode_gmodel S simp m) ++ g_params (ode_gmodel S simp m))) by (cbn [ode_gmodel g_indep g_params]; rewrite Eti; exact Hnd).
    assert (Hlv : List.length [a] = List.length (g_indep (ode_gmodel S simp m))) by (cbn [ode_gmodel g_indep]; rewrite Eti; reflexivity).
    assert (Hlp : List.length (map theta ps) = List.length (g_params (ode_gmodel S simp m))) by (cbn [ode_gmodel g_params]; rewrite !map_length; reflexivity).
    assert (Hgne : g_params (ode_gmodel S simp m) <> []) by (cbn [ode_gmodel g_params]; fold ps; destruct ps; [exfalso; apply Hne; reflexivity|discriminate]).
    destruct (fd_values (ode_gmodel S simp m) [a] (fun _ => [N]) (ode_F theta) (map theta ps) step_size [] d Hgn Hlv Hlp (ode_inputs_fd theta d Hd) (ode_evaluates theta Hs) Hgne) as (out & log & Hfd & _ & _ & Hlo & Hout).
    cbn [ode_gmodel g_len] in Hlo, Hout. unfold ode_len in Hlo, Hout. rewrite Hlen in Hlo, Hout. assert (Hgp : List.length (g_params (ode_gmodel S simp m)) = List.length ps) by (cbn [ode_gmodel g_params]; apply map_length).
    exists (ode_om_jac S simp m), (combine (o_dep m) out). split; [reflexivity|]. split.
    { unfold ode_om_jac. change default_dx with step_size; rewrite Hfd. reflexivity. }
    split.
    - unfold lists_dependent. cbn [om om_of_ode om_dep]. rewrite dkeys_combine by (symmetry; exact Hlo). apply filter_self.
    - intros v Hv. cbn [om om_of_ode om_dep] in Hv. apply In_nth_error in Hv as (c & Hc). assert (Hcl : (c < List.length (o_dep m))%nat) by (apply nth_error_Some; congruence).
      unfold entry. rewrite (combine_get_nth (o_dep m) out c v (scalar 0) (nodup_dep ord items initial user t Ho Hf Hin Hn m Hm) Hc Hlo).
      destruct (Hout c Hcl) as (Hsh & Hval). rewrite Hgp in Hsh, Hval. split; [exact Hsh|]. cbn [om om_of_ode om_params]. intros i k Hi Hk. rewrite (Hval i k Hk).
      destruct (nth_error ps k) as [p|] eqn:Hp; [|apply nth_error_None in Hp; unfold ps in Hp; clear -Hp Hk; lia].
      unfold ode_jacobian. rewrite (nth_error_nth _ _ t Hp). rewrite (nth_error_nth _ _ 0 (map_nth_error theta k ps Hp)).
      unfold central6. assert (E : forall x, elem (ode_F theta (with_entry (map theta ps) k x) c) i = Phi (with_value theta p x) v (nth (hd 0%nat i) tr 0)).
      { intros x. rewrite elem_val by (unfold ode_F, nd_row; cbn [shp]; rewrite map_length, Htr; exact Hi). unfold ode_F. rewrite (vector_entry theta k p x Hp), (nth_error_nth _ _ t Hc). cbn [nd_row val].
        rewrite indices1 in Hi. apply in_map_iff in Hi as (q & <- & Hq). apply in_seq in Hq. cbn [hd].
        rewrite (nth_indep _ 0 (Phi (with_value theta p x) v 0)) by (rewrite map_length, Htr; clear -Hq; lia). apply map_nth. }
      rewrite !E. reflexivity.
  Qed.
End OdeOm.
