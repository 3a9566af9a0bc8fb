(** * OdeMain: evaluating an ODE model with an exact integrator. *)
From Coq Require Import Reals Lra Sorted.
From Coquelicot Require Import Coquelicot.
From Verif Require Import PyBase PyFacts Toposort Signature SignatureFacts Expr Model ModelSpec ModelFacts CallFacts ModelMisc ExprR Jacobian JacAnalysis Ode OdeSpec OdeTimes OdeFacts.
Local Open Scope R_scope.
Local Open Scope list_scope.

Lemma map_nth_index {X} `{EqDec X} (l : list X) (f : X -> R) (i : nat) : (i < List.length l)%nat ->
  forall d, nth i (map f l) 0 = f (nth i l d).
Proof. intros Hi d. rewrite (nth_indep _ 0 (f d)) by (rewrite map_length; exact Hi). apply map_nth. Qed.

(** Position of a symbol in a list. *)
Fixpoint index (l : list sym) (s : sym) : nat :=
  match l with [] => 0%nat | x :: l' => if eq_dec s x then 0%nat else Datatypes.S (index l' s) end.
Lemma index_lt l s : In s l -> (index l s < List.length l)%nat.
Proof. induction l as [|x l IH]; simpl; [tauto|]. intros H. destruct (eq_dec s x); [lia|]. destruct H; [congruence|]. apply IH in H. lia. Qed.
Lemma index_nth l i d : NoDup l -> (i < List.length l)%nat -> index l (nth i l d) = i.
Proof.
  revert i. induction l as [|x l IH]; simpl; intros i Hnd Hi; [lia|]. inv Hnd. destruct i as [|i].
  - destruct (eq_dec x x); [reflexivity|contradiction].
  - destruct (eq_dec (nth i l d) x) as [He|_]; [exfalso; apply H1; rewrite <- He; apply nth_In; lia|]. rewrite IH; auto; lia.
Qed.
Lemma list_of_index (l : list sym) (v : list R) : NoDup l -> List.length v = List.length l ->
  v = map (fun s => nth (index l s) v 0) l.
Proof.
  intros Hnd Hl. apply (nth_ext _ _ 0 0); [rewrite map_length; exact Hl|]. intros i Hi.
  rewrite (map_nth_index l (fun s => nth (index l s) v 0) i) with (d := SVar ""%string) by lia. rewrite index_nth by (auto; lia). reflexivity.
Qed.
Lemma replace_nth_map (l : list sym) (f : sym -> R) j x d : NoDup l -> (j < List.length l)%nat ->
  replace_nth j x (map f l) = map (fun s => if eq_dec s (nth j l d) then x else f s) l.
Proof.
  unfold replace_nth. revert j. induction l as [|a l IH]; simpl; intros j Hnd Hj; [lia|]. inv Hnd. destruct j as [|j].
  - simpl. destruct (eq_dec a a); [|contradiction]. f_equal. apply map_ext_in. intros s Hs. destruct (eq_dec s a) as [->|]; [contradiction|reflexivity].
  - cbn [firstn skipn app nth]. destruct (eq_dec a (nth j l d)) as [He|_]; [exfalso; apply H1; rewrite He; apply nth_In; lia|].
    f_equal. change (match map f l with [] => [] | _ :: l0 => skipn j l0 end) with (skipn (Datatypes.S j) (map f l)). apply IH; auto; lia.
Qed.

Section Main.
  Context (S : ivp -> res ivp_result) (simp : expr -> expr) (ord : list sym -> list sym) (items : dict odkey expr)
    (initial : dict sym oinit) (user : dict string optval) (t : sym) (m : ode) (inp : sym -> R) (t0 h lo hi : R) (phi : sym -> R -> R).
  Hypothesis HS : exact S.
  Hypothesis Hsimp : simp_ok simp.
  Hypothesis Ho : set_order ord.
  Hypothesis Hf : first_order items t.
  Hypothesis Hin : initial_ok initial.
  Hypothesis Hn : ode_names items initial t.
  Hypothesis Hm : init_ode ord items initial user = Ok m.
  Hypothesis Ht0 : dget initial t = Some (IVal t0).
  (** [phi] has the given initial values at time [h]; it is the solution the user
      means if [h] is the initial time [t0]. *)
  Hypothesis Hphi : the_solution items t initial inp h phi lo hi.

  Let Y (u : R) : list R := map (fun y => phi y u) (o_dep m).
  Let y0 : list R := Y h.
  Let args := margs m inp.
  Let P := problem simp m y0 args.

  Lemma sysY u (val : sym -> R) : system m u (map val (o_dep m)) args = Ok (map (fun y => eval Ralg (env_of items t inp u val) (rhs m y)) (o_dep m)).
  Proof. apply (system_val ord items initial user t Ho Hf Hin Hn m Hm inp). Qed.

  Lemma dep_item y : In y (o_dep m) -> exists d, In (d, rhs m y) items /\ od_y d = y.
  Proof. intros Hy. destruct (rhs_item ord items initial user t Ho Hf Hin Hn m Hm y Hy) as (d & H1 & H2 & _). eauto. Qed.

  Lemma traj l : hd 0 l = h -> trajectory (P l) lo hi Y.
  Proof.
    intros Hh. unfold trajectory, P, problem. cbn [i_span i_y0 i_sys i_args fst]. rewrite Hh. destruct Hphi as (Hr & Hs & _).
    split; [exact Hr|]. split; [reflexivity|]. intros u Hu. split; [unfold y0, Y; rewrite !map_length; reflexivity|].
    eexists. split; [apply sysY|]. split; [unfold y0, Y; rewrite !map_length; reflexivity|]. intros i Hi. rewrite map_length in Hi.
    rewrite (map_nth_index (o_dep m) _ i) with (d := t) by exact Hi.
    apply (is_derive_ext (phi (nth i (o_dep m) t))).
    { intros w. unfold Y. symmetry. apply (map_nth_index (o_dep m) (fun y => phi y w) i Hi t). }
    destruct (dep_item (nth i (o_dep m) t)) as (d & Hd & He); [apply nth_In; exact Hi|].
    destruct (Hs d _ u Hd Hu) as [_ H]. rewrite He in H. exact H.
  Qed.

  Lemma uniq l : hd 0 l = h -> forall lo' hi' Z, lo <= lo' -> hi' <= hi -> trajectory (P l) lo' hi' Z ->
    forall u, lo' < u < hi' -> Z u = Y u.
  Proof.
    intros Hh lo' hi' Z Hlo Hhi HZ u Hu. unfold trajectory, P, problem in HZ. cbn [i_span i_y0 i_sys i_args fst] in HZ. rewrite Hh in HZ.
    destruct HZ as (Hr & HZ0 & HZ). destruct Hphi as (_ & _ & Hst & Hun).
    set (psi := fun (s : sym) (w : R) => nth (index (o_dep m) s) (Z w) 0).
    assert (Hnd : NoDup (o_dep m)) by (apply (nodup_dep ord items initial user t Ho Hf Hin Hn m Hm)).
    assert (Hlen : forall w, lo' < w < hi' -> List.length (Z w) = List.length (o_dep m)).
    { intros w Hw. destruct (HZ w Hw) as [H _]. rewrite H. unfold y0, Y. apply map_length. }
    assert (HZpsi : forall w, lo' < w < hi' -> Z w = map (fun s => psi s w) (o_dep m)).
    { intros w Hw. apply list_of_index; auto. }
    assert (Hdep : forall y, In y (o_dep m) <-> In y (unknowns items)) by (apply (in_dep ord items initial user t Ho Hf Hin Hn m Hm)).
    rewrite HZpsi by exact Hu. unfold Y. apply map_ext_in. intros y Hy.
    apply (Hun psi lo' hi'); auto.
    - intros d e w Hd Hw. destruct (HZ w Hw) as (_ & dy & Hdy & Hl & Hder). rewrite (HZpsi w Hw), sysY in Hdy. inv Hdy.
      assert (Hyd : In (od_y d) (o_dep m)) by (apply Hdep; apply in_map_iff; exists (d, e); auto).
      specialize (Hder (index (o_dep m) (od_y d))). rewrite map_length in Hder. specialize (Hder (index_lt _ _ Hyd)).
      rewrite (map_nth_index (o_dep m) _ (index (o_dep m) (od_y d)) (index_lt _ _ Hyd) t) in Hder.
      assert (Hnth : nth (index (o_dep m) (od_y d)) (o_dep m) t = od_y d).
      { clear -Hyd. induction (o_dep m) as [|x l IH]; [contradiction|]. simpl. destruct (eq_dec (od_y d) x) as [->|Hne]; [reflexivity|].
        destruct Hyd as [->|H]; [contradiction|auto]. }
      rewrite Hnth in Hder. unfold rhs in Hder. rewrite (getitem_ok ord items initial user t Ho Hf Hin Hn m Hm d e Hd) in Hder.
      exact Hder.
    - intros s Hs. destruct (Hst s Hs) as (i & Hi & He). exists i. split; [exact Hi|]. rewrite <- He.
      pose proof (HZpsi h Hr) as Hz. rewrite HZ0 in Hz. unfold y0, Y in Hz. apply Hdep in Hs. symmetry.
      clear -Hz Hs. induction (o_dep m) as [|x l IH] in Hz, Hs |- *; [contradiction|]. cbn [map] in Hz. injection Hz as H1 H2.
      destruct Hs as [->|Hs]; [exact H1|auto].
    - apply Hdep. exact Hy.
  Qed.

  Lemma jacY l : jac_correct (P l) lo hi Y.
  Proof.
    intros u Hu. unfold P, problem. cbn [i_jac i_args i_sys i_y0].
    eexists. split; [apply (diff_system_val ord items initial user t Ho Hf Hin Hn m Hm inp simp Hsimp)|].
    split; [unfold y0, Y; rewrite !map_length; reflexivity|]. unfold y0, Y at 1 2 3. rewrite !map_length. intros i j Hi Hj.
    assert (Hnth : forall k (f : sym -> list R), (k < List.length (o_dep m))%nat -> nth k (map f (o_dep m)) [] = f (nth k (o_dep m) t)).
    { intros k f Hk. rewrite (nth_indep _ [] (f t)) by (rewrite map_length; exact Hk). apply map_nth. }
    rewrite Hnth by exact Hi. split; [rewrite map_length; reflexivity|].
    rewrite (map_nth_index (o_dep m) _ j Hj t). unfold Y. rewrite (map_nth_index (o_dep m) _ j Hj t).
    set (v := nth j (o_dep m) t). set (y := nth i (o_dep m) t).
    assert (Hv : In v (o_dep m)) by (apply nth_In; exact Hj). assert (Hy : In y (o_dep m)) by (apply nth_In; exact Hi).
    assert (Hnd : NoDup (o_dep m)) by (apply (nodup_dep ord items initial user t Ho Hf Hin Hn m Hm)).
    apply (is_derive_ext (fun x => eval Ralg (env_of items t inp u (fun s => if eq_dec s v then x else phi s u)) (rhs m y))).
    - intros x.
      transitivity (match system m u (map (fun s => if eq_dec s v then x else phi s u) (o_dep m)) args with Ok f => nth i f 0 | Raise _ => 0 end).
      + rewrite (sysY u (fun s => if eq_dec s v then x else phi s u)). symmetry.
        exact (map_nth_index (o_dep m) (fun z => eval Ralg (env_of items t inp u (fun s => if eq_dec s v then x else phi s u)) (rhs m z)) i Hi t).
      + apply (f_equal (fun l => match system m u l args with Ok f => nth i f 0 | Raise _ => 0 end)). symmetry.
        exact (replace_nth_map (o_dep m) (fun y => phi y u) j x t Hnd Hj).
    - apply (drhs_derive ord items initial user t Ho Hf Hin Hn m Hm inp simp Hsimp u (fun s => phi s u) v y Hv Hy).
      destruct (dep_item y Hy) as (d & Hd & _). destruct Hphi as (_ & Hs & _). destruct (Hs d _ u Hd Hu) as [H _]. exact H.
  Qed.

  Lemma answersY ts : h = t0 -> (forall u, In u ts -> lo < u < hi) -> answers S simp m y0 args t0 Y ts.
  Proof.
    intros Eh Hts l (Hh & _ & _) Hl. rewrite <- Eh in Hh. apply (HS (P l) lo hi Y).
    - apply traj; exact Hh.
    - apply uniq; exact Hh.
    - apply jacY.
    - intros u Hu. unfold P, problem in Hu. cbn [i_eval] in Hu. destruct (Hl u Hu) as [->|H]; [rewrite <- Eh; destruct Hphi; tauto|auto].
  Qed.

  (** Binding the call. *)
  Lemma call_columns t_like a kw : supplies (call_values t t_like (o_params m) inp) a kw ->
    ode_columns S simp m a kw =
      (let at_initial := match t_like with VNum r => reqb r t0 | VArr _ => false end in
       if at_initial then Ok [y0]
       else let ts := match t_like with VNum r => [r] | VArr l => l end in
            evaluate S simp m y0 args t0 ts (fst (split_times t0 ts)) (snd (split_times t0 ts))).
  Proof.
    intros Hsup. destruct (init_ode_inv ord items initial user t Ho Hf Hin Hn m Hm) as (_ & Hini & _ & Hind & Hdep & _ & _ & Hpar & Hsig).
    assert (Hnd : NoDup (map sname (t :: o_params m))).
    { apply (args_nodup items initial t Hf Hin Hn); [rewrite Hpar; apply (sorted_nodup ord Ho), NoDup_dedup|].
      intros p. apply (in_oparams ord items initial user t Ho Hf Hin Hn m Hm). }
    set (b := call_values t t_like (o_params m) inp) in *.
    assert (Hkeys : dkeys b = map sname (t :: o_params m)).
    { unfold b, call_values, dkeys. cbn [map fst]. f_equal. rewrite map_map. reflexivity. }
    assert (Hb : sig_bind (o_sig m) a kw = Ok b).
    { rewrite Hsig. apply sig_bind_supplies; [exact Hnd| |split; auto].
      eapply supplies_nodup; [|exact Hsup]. rewrite Hkeys. exact Hnd. }
    assert (Hbt : dlook b (sname t) = Ok t_like).
    { unfold b, call_values, dlook. cbn [dget]. destruct (eq_dec (sname t) (sname t)); [reflexivity|contradiction]. }
    assert (Hbp : forall p, In p (o_params m) -> dlook b (sname p) = Ok (VNum (inp p))).
    { intros p Hp. unfold dlook. rewrite (In_dget b (sname p) (VNum (inp p))); [reflexivity|rewrite Hkeys; exact Hnd|].
      right. apply in_map_iff. exists p. auto. }
    unfold ode_columns. rewrite Hb. cbn [bind]. rewrite Hind. cbn [hd_error of_opt bind]. rewrite Hbt. cbn [bind]. rewrite Hini.
    destruct Hphi as (_ & _ & Hst & _).
    assert (Hy0 : exists is, mapM (dlook initial) (o_dep m) = Ok is /\ mapM (initial_value m b) is = Ok y0).
    { assert (Hall : forall y, In y (o_dep m) -> exists i, dlook initial y = Ok i /\ initial_value m b i = Ok (phi y h)).
      { intros y Hy. apply (in_dep ord items initial user t Ho Hf Hin Hn m Hm) in Hy. destruct (Hst y Hy) as (i & Hi & He). exists i.
        split; [unfold dlook; rewrite Hi; reflexivity|]. rewrite He. destruct i as [r|p]; simpl; [reflexivity|].
        assert (Hp : init_par initial p) by (exists y; apply dget_In; exact Hi).
        pose proof (proj2 (in_iparams ord items initial user t Ho Hf Hin Hn m Hm p) Hp) as Hip. rewrite (proj2 (inb_In _ _) Hip).
        rewrite Hbp; [reflexivity|]. apply (in_oparams ord items initial user t Ho Hf Hin Hn m Hm). right; exact Hp. }
      unfold y0, Y. induction (o_dep m) as [|y l IH] in Hall |- *; [exists []; split; reflexivity|].
      destruct (Hall y (or_introl eq_refl)) as (i & H1 & H2). destruct IH as (is & H3 & H4); [intros; apply Hall; right; assumption|].
      exists (i :: is). simpl. rewrite H1, H3. cbn [bind mapM]. rewrite H2. cbn [bind]. rewrite H4. split; reflexivity. }
    destruct Hy0 as (is & -> & Hy0). cbn [bind]. rewrite Hy0. cbn [bind]. unfold dlook at 1. rewrite Ht0. cbn [of_opt bind].
    destruct (match t_like with VNum r => reqb r t0 | VArr _ => false end); [reflexivity|].
    set (ts := match t_like with VNum r => [r] | VArr l => l end). cbv zeta. destruct (split_times t0 ts) as [tb tsm] eqn:Esp. cbn [fst snd].
    assert (Hma : mapM (fun p => v <- dlook b (sname p) ;; as_num v) (o_model_params m) = Ok args).
    { unfold args, margs. apply mapM_map. intros p Hp. rewrite Hbp; [reflexivity|].
      apply (in_oparams ord items initial user t Ho Hf Hin Hn m Hm). left. apply (in_mparams ord items initial user t Ho Hf Hin Hn m Hm). exact Hp. }
    rewrite Hma. cbn [bind]. reflexivity.
  Qed.

  (** Output. *)
  Local Notation reports := (reports items phi).
  Lemma output_of ts : reports {| mo_vars := ode_keys m; mo_out := rows (List.length (o_dep m)) (map Y ts) |} ts.
  Proof.
    cbn [mo_vars mo_out]. destruct (init_ode_inv ord items initial user t Ho Hf Hin Hn m Hm) as (_ & _ & _ & _ & Hdp & _).
    split; [unfold ode_keys; cbn [mo_vars]; rewrite Hdp; symmetry; apply sort_by_perm|].
    split; [unfold ode_keys; cbn [mo_vars]; rewrite Hdp; apply sort_by_sorted|]. clear Hdp.
    split.
    { cbn [mo_vars mo_out]. unfold rows, ode_keys. apply (nth_ext _ _ [] []); rewrite !map_length, !seq_length; [reflexivity|].
      intros i Hi. rewrite (nth_indep _ [] (row (map Y ts) 0)) by (rewrite map_length, seq_length; exact Hi). rewrite map_nth, seq_nth by exact Hi.
      rewrite (nth_indep _ [] ((fun y => map (phi y) ts) t)) by (rewrite map_length; exact Hi). rewrite (map_nth (fun y => map (phi y) ts)). cbn [Nat.add].
      unfold row. rewrite map_map. apply map_ext. intros u. unfold Y. apply (map_nth_index (o_dep m) (fun s => phi s u) i Hi t). }
    intros y Hy. apply (in_dep ord items initial user t Ho Hf Hin Hn m Hm) in Hy.
    destruct (In_nth _ _ t Hy) as (i & Hi & Hni).
    assert (Hnd : NoDup (map sname (o_dep m))).
    { apply (names_nodup items initial t Hn); [apply (nodup_dep ord items initial user t Ho Hf Hin Hn m Hm)|].
      intros s Hs. right; left. apply (in_dep ord items initial user t Ho Hf Hin Hn m Hm). exact Hs. }
    apply (model_output_access {| mo_vars := ode_keys m; mo_out := rows (List.length (o_dep m)) (map Y ts) |} i y (map (phi y) ts)); cbn [mo_vars mo_out]; auto.
    - unfold rows, ode_keys. rewrite map_length, seq_length. reflexivity.
    - unfold ode_keys. rewrite <- Hni. apply nth_error_nth'. exact Hi.
    - unfold rows. rewrite nth_error_map. assert (Hs : nth_error (seq 0 (List.length (o_dep m))) i = Some i).
      { rewrite (nth_error_nth' _ 0%nat) by (rewrite seq_length; exact Hi). rewrite seq_nth by exact Hi. reflexivity. }
      rewrite Hs. cbn [option_map]. f_equal. unfold row. rewrite map_map. apply map_ext. intros u. unfold Y.
      rewrite (map_nth_index (o_dep m) (fun s => phi s u) i Hi t), Hni. reflexivity.
  Qed.

  Theorem ode_ascending ts a kw : h = t0 -> supplies (call_values t (VArr ts) (o_params m) inp) a kw ->
    StronglySorted Rlt ts -> (exists u, In u ts /\ u <> t0) -> (forall u, In u ts -> lo < u < hi) ->
    exists o, ode_call S simp m a kw = Ok o /\ reports o ts.
  Proof.
    intros Eh Hsup Hasc Hne Hr. unfold ode_call. rewrite (call_columns (VArr ts)) by exact Hsup. cbv zeta iota.
    rewrite (evaluate_ascending S simp m y0 args t0 Y); auto; [|apply answersY; [exact Eh|exact Hr]]. cbn [bind].
    eexists. split; [reflexivity|]. apply output_of.
  Qed.

  Theorem ode_scalar r a kw : h = t0 -> supplies (call_values t (VNum r) (o_params m) inp) a kw -> lo < r < hi ->
    exists o, ode_call S simp m a kw = Ok o /\ reports o [r].
  Proof.
    intros Eh Hsup Hr. unfold ode_call. rewrite (call_columns (VNum r)) by exact Hsup. cbv zeta iota.
    destruct (reqb r t0) eqn:E.
    - apply reqb_true in E. subst r. cbn [bind]. eexists. split; [reflexivity|]. rewrite <- Eh. exact (output_of [h]).
    - apply reqb_false in E. rewrite (evaluate_ascending S simp m y0 args t0 Y).
      + cbn [bind]. eexists. split; [reflexivity|]. apply output_of.
      + apply answersY; [exact Eh|]. intros u [<-|[]]; exact Hr.
      + repeat constructor.
      + exists r. split; [left; reflexivity|exact E].
  Qed.

  Theorem ode_unsorted ts a kw : h = t0 -> supplies (call_values t (VArr ts) (o_params m) inp) a kw ->
    ts <> [] -> ~ In t0 ts -> (forall u, In u ts -> lo < u < hi) ->
    (~ (StronglySorted Rlt (below t0 ts) /\ StronglySorted Rlt (above t0 ts)) /\ ode_call S simp m a kw = Raise ValueError) \/
    exists o, ode_call S simp m a kw = Ok o /\ StronglySorted Rlt (below t0 ts ++ above t0 ts) /\
      Permutation (below t0 ts ++ above t0 ts) ts /\ reports o (below t0 ts ++ above t0 ts).
  Proof.
    intros Eh Hsup Hne Hnin Hr. unfold ode_call. rewrite (call_columns (VArr ts)) by exact Hsup. cbv zeta iota.
    destruct (evaluate_unsorted S simp m y0 args t0 Y ts (answersY ts Eh Hr) Hne Hnin) as [[Hc H]|(Hp & Hs & H)]; rewrite H; cbn [bind].
    - left; split; [exact Hc|reflexivity].
    - right. eexists. split; [reflexivity|]. repeat split; auto; apply output_of.
  Qed.

  Theorem ode_only_initial a kw : supplies (call_values t (VArr [t0]) (o_params m) inp) a kw ->
    ode_call S simp m a kw = Raise AttributeError.
  Proof.
    intros Hsup. unfold ode_call. rewrite (call_columns (VArr [t0])) by exact Hsup. cbv zeta iota.
    unfold split_times. cbn [existsb]. rewrite (proj2 (reqb_true t0 t0) eq_refl). cbn [orb filter].
    rewrite (proj2 (rleb_true t0 t0)) by lra. reflexivity.
  Qed.

  Theorem ode_empty a kw : supplies (call_values t (VArr []) (o_params m) inp) a kw ->
    ode_call S simp m a kw = Raise AttributeError.
  Proof. intros Hsup. unfold ode_call. rewrite (call_columns (VArr [])) by exact Hsup. reflexivity. Qed.

  (** A decreasing array that ends at the initial time: the initial values are
      imposed at its first element. *)
  Theorem ode_descending ts a kw : supplies (call_values t (VArr ts) (o_params m) inp) a kw ->
    StronglySorted Rgt ts -> (1 < List.length ts)%nat -> last ts 0 = t0 -> hd 0 ts = h -> (forall u, In u ts -> lo < u < hi) ->
    exists o, ode_call S simp m a kw = Ok o /\ reports o ts.
  Proof.
    intros Hsup Hd Hlen Hlast Hh Hr. unfold ode_call. rewrite (call_columns (VArr ts)) by exact Hsup. cbv zeta iota.
    rewrite evaluate_descending by assumption. fold P. fold args. change (problem simp m y0 args ts) with (P ts).
    rewrite (HS (P ts) lo hi Y).
    - cbn [bind]. unfold check_success. cbn [r_success r_y bind]. eexists. split; [reflexivity|]. apply output_of.
    - apply traj; exact Hh.
    - apply uniq; exact Hh.
    - apply jacY.
    - exact Hr.
  Qed.

  (** The initial time given twice: three columns. *)
  Theorem ode_twice_initial a kw : h = t0 -> supplies (call_values t (VArr [t0; t0]) (o_params m) inp) a kw ->
    exists o, ode_call S simp m a kw = Ok o /\ reports o [t0; t0; t0].
  Proof.
    intros Eh Hsup. unfold ode_call. rewrite (call_columns (VArr [t0; t0])) by exact Hsup. cbv zeta iota.
    assert (HP : S (P [t0; t0]) = Ok {| r_success := true; r_y := map Y [t0; t0] |}).
    { apply (HS (P [t0; t0]) lo hi Y).
      - apply traj. symmetry; exact Eh.
      - apply uniq. symmetry; exact Eh.
      - apply jacY.
      - intros u Hu. unfold P, problem in Hu. cbn [i_eval] in Hu. destruct Hphi as (Hr & _). rewrite Eh in Hr. destruct Hu as [<-|[<-|[]]]; exact Hr. }
    assert (H1 : reqb t0 t0 = true) by (apply reqb_true; reflexivity). assert (H2 : rleb t0 t0 = true) by (apply rleb_true; lra).
    assert (H3 : rltb t0 t0 = false) by (apply rltb_false; lra).
    assert (Hsv : solve_ivp S (P [t0; t0]) = S (P [t0; t0])).
    { unfold solve_ivp. unfold P at 1, problem. cbn [i_span hd last].
      rewrite (Rmin_left t0 t0), (Rmax_left t0 t0) by lra. cbn [P problem i_eval existsb]. rewrite !H3. reflexivity. }
    unfold split_times. cbn [existsb]. rewrite !H1. cbn [orb filter]. rewrite !H2. cbn [rev app fst snd].
    unfold evaluate. rewrite !integrate_unfold. cbn [List.length Nat.ltb Nat.leb]. fold (P [t0; t0]). rewrite Hsv, HP. cbn [bind].
    unfold rejoin, check_success. cbn [r_success r_y bind existsb map tl rev app]. rewrite H1. cbn [orb].
    eexists. split; [reflexivity|]. exact (output_of [t0; t0; t0]).
  Qed.
End Main.

(** A failed integration is never turned into numbers. *)
Lemma evaluate_failure S simp m y0 args t0 ts c : StronglySorted Rlt ts ->
  evaluate S simp m y0 args t0 ts (fst (split_times t0 ts)) (snd (split_times t0 ts)) = Ok c ->
  ((exists u, In u ts /\ t0 < u) -> exists p r, S p = Ok r /\ fst (i_span p) < snd (i_span p) /\ r_success r = true) /\
  ((exists u, In u ts /\ u < t0) -> exists p r, S p = Ok r /\ snd (i_span p) < fst (i_span p) /\ r_success r = true).
Proof.
  intros Ha. rewrite split_asc by exact Ha. cbn [fst snd]. unfold evaluate. rewrite !integrate_unfold. intros H.
  apply bind_Ok in H as (b & Hb & H). apply bind_Ok in H as (s & Hs & H). unfold rejoin in H. apply bind_Ok in H as (ans & Hans & _).
  assert (HA : forall u, In u (below t0 ts) -> u < t0) by (intros x Hx; apply in_below in Hx; tauto).
  assert (HB : forall u, In u (above t0 ts) -> t0 < u) by (intros x Hx; apply in_above in Hx; tauto).
  split.
  - intros (u & Hu & Hlt). assert (Hne : above t0 ts <> []).
    { intros E. assert (In u (above t0 ts)) by (apply in_above; auto). rewrite E in *; contradiction. }
    assert (Hl : Nat.ltb 1 (List.length (t0 :: above t0 ts)) = true) by (apply Nat.ltb_lt; destruct (above t0 ts); [contradiction|simpl; lia]).
    rewrite Hl, (solve_asc S simp m y0 args t0 _ Hne HB) in Hb. destruct (all_ascending _); [|discriminate].
    apply bind_Ok in Hb as (r & Hr & Hb). inv Hb. exists (problem simp m y0 args (t0 :: above t0 ts)), r.
    split; [exact Hr|]. split.
    + unfold problem. cbn [i_span fst snd hd]. apply HB. replace (last (t0 :: above t0 ts) 0) with (last (above t0 ts) 0) by (destruct (above t0 ts); [contradiction|reflexivity]).
      apply last_in. exact Hne.
    + destruct s as [s|]; cbn [bind] in Hans.
      * apply bind_Ok in Hans as (y1 & _ & Hans). apply bind_Ok in Hans as (y2 & Hc & _). unfold check_success in Hc. destruct (r_success r); [reflexivity|discriminate].
      * unfold check_success in Hans. destruct (r_success r); [reflexivity|discriminate].
  - intros (u & Hu & Hlt). assert (Hne : below t0 ts <> []).
    { intros E. assert (In u (below t0 ts)) by (apply in_below; auto). rewrite E in *; contradiction. }
    assert (Hl : Nat.ltb 1 (List.length (t0 :: rev (below t0 ts))) = true).
    { apply Nat.ltb_lt. cbn [List.length]. rewrite rev_length. destruct (below t0 ts); [contradiction|simpl; lia]. }
    rewrite Hl, (solve_desc S simp m y0 args t0 _ Hne HA) in Hs. destruct (all_ascending (below t0 ts)); [|discriminate].
    apply bind_Ok in Hs as (r & Hr & Hs). inv Hs. exists (problem simp m y0 args (t0 :: rev (below t0 ts))), r.
    split; [exact Hr|]. split.
    + unfold problem. cbn [i_span fst snd hd]. apply HA.
      destruct (below t0 ts) as [|x l]; [contradiction|]. simpl rev. change (t0 :: rev l ++ [x]) with ((t0 :: rev l) ++ [x]). rewrite last_last. left; reflexivity.
    + destruct b as [b|]; cbn [bind] in Hans.
      * apply bind_Ok in Hans as (y1 & Hc & Hans). unfold check_success in Hc. destruct (r_success r); [reflexivity|discriminate].
      * apply bind_Ok in Hans as (y1 & Hc & Hans). unfold check_success in Hc. destruct (r_success r); [reflexivity|discriminate].
Qed.

Lemma call_failure S simp (m : ode) ts a kw t t0 bound o : StronglySorted Rlt ts ->
  sig_bind (o_sig m) a kw = Ok bound -> o_indep m = [t] -> dget bound (sname t) = Some (VArr ts) ->
  dget (o_initial m) t = Some (IVal t0) -> ode_call S simp m a kw = Ok o ->
  ((exists u, In u ts /\ t0 < u) -> exists p r, S p = Ok r /\ fst (i_span p) < snd (i_span p) /\ r_success r = true) /\
  ((exists u, In u ts /\ u < t0) -> exists p r, S p = Ok r /\ snd (i_span p) < fst (i_span p) /\ r_success r = true).
Proof.
  intros Ha Hb Hi Ht H0 H. unfold ode_call in H. apply bind_Ok in H as (c & Hc & _). unfold ode_columns in Hc.
  rewrite Hb in Hc. cbn [bind] in Hc. rewrite Hi in Hc. cbn [hd_error of_opt bind] in Hc. unfold dlook at 1 in Hc. rewrite Ht in Hc. cbn [of_opt bind] in Hc.
  apply bind_Ok in Hc as (is & _ & Hc). apply bind_Ok in Hc as (y0 & _ & Hc). unfold dlook at 1 in Hc. rewrite H0 in Hc. cbn [of_opt bind] in Hc.
  destruct (split_times t0 ts) as [tb tsm] eqn:Es. apply bind_Ok in Hc as (args & _ & Hc).
  apply (evaluate_failure S simp m y0 args t0 ts c Ha). rewrite Es. exact Hc.
Qed.
