(** * MinExecAgain: executing a minimizer again. *)
From Coq Require Import Reals Lia.
From Verif Require Import PyBase PyFacts Signature SignatureFacts Expr NumPy Model Objective Minimizer MinSpec MinLemmas MinObj MinObjSpec MinObjFacts MinObjMain MinExec MinExecSpec MinExecFacts MinExecMain.
Local Open Scope string_scope.
Local Open Scope list_scope.

Section Again.
  Context {raw U : Type}.
  Notation options := (options U).
  Notation store := (store U).
  Notation scall := (scall raw U).
  Notation object := (object raw).
  Notation attrs := (attrs raw).
  Implicit Types (kw d : options) (st : store).

  (** ** Other addresses *)
  Definition ro (r : nat -> nat) (o : opt U) : opt U := match o with ODict a => ODict (r a) | o => o end.
  Definition rk (r : nat -> nat) kw : options := map (fun kv => (fst kv, ro r (snd kv))) kw.
  Definition rc (r : nat -> nat) (c : scall) : scall := {| ca_function := ca_function c; ca_objective := ca_objective c; ca_x0 := ca_x0 c; ca_kw := rk r (ca_kw c) |}.
  Definition static (l : list pyclass) : bool := forallb (fun c => match c with Concrete TrustConstr | Concrete BasinHopping => false | _ => true end) l.

  Lemma rk_dget r kw n : dget (rk r kw) n = option_map (ro r) (dget kw n).
  Proof using. induction kw as [|[k v] kw IH]; [reflexivity|]. cbn. destruct (eq_dec n k); [reflexivity|exact IH]. Qed.
  Lemma rk_dmem r kw n : dmem (rk r kw) n = dmem kw n.
  Proof using. rewrite !dmem_dget, rk_dget. destruct (dget kw n); reflexivity. Qed.
  Lemma rk_ddel r kw n : ddel (rk r kw) n = rk r (ddel kw n).
  Proof using. unfold ddel, rk. induction kw as [|[k v] kw IH]; [reflexivity|]. cbn [map filter fst snd]. destruct (eqb n k); cbn [negb map fst snd]; rewrite IH; reflexivity. Qed.
  Lemma rk_dset r kw n v : dset (rk r kw) n (ro r v) = rk r (dset kw n v).
  Proof using. induction kw as [|[k w] kw IH]; [reflexivity|]. cbn [rk map dset fst snd]. destruct (eq_dec n k); cbn [rk map dset fst snd]; [reflexivity|]. fold (rk r kw). rewrite IH. reflexivity. Qed.
  Lemma rk_dupdate r kw d : dupdate (rk r kw) (rk r d) = rk r (dupdate kw d).
  Proof using. unfold dupdate. revert kw. induction d as [|[k w] d IH]; intros kw; [reflexivity|]. cbn [rk map fold_left fst snd]. fold (rk r d). rewrite rk_dset. apply IH. Qed.
  Lemma take_eq kw n v : take kw n v = (default kw n v, ddel kw n).
  Proof using. reflexivity. Qed.
  Lemma rk_default r kw n v : ro r v = v -> default (rk r kw) n v = ro r (default kw n v).
  Proof using. intros H. unfold default. rewrite rk_dget. destruct (dget kw n); cbn [option_map]; [reflexivity|]. symmetry. exact H. Qed.
  Lemma rk_also r kw n v : also (rk r kw) n (ro r v) = match also kw n v with Ok k => Ok (rk r k) | Raise e => Raise e end.
  Proof using. unfold also. rewrite rk_dmem. destruct (dmem kw n); reflexivity. Qed.
  Lemma rk_not_again r kw l : not_again (rk r kw) l = not_again kw l.
  Proof using. unfold not_again. replace (existsb (dmem (rk r kw)) l) with (existsb (dmem kw) l); [reflexivity|]. induction l as [|n l IH]; [reflexivity|]. cbn [existsb]. rewrite rk_dmem, IH. reflexivity. Qed.
  Lemma ro_if_none r (a b : opt U) : if_none (ro r a) (ro r b) = ro r (if_none a b).
  Proof using. destruct a; reflexivity. Qed.
  Lemma ro_or_default r (a b : opt U) : or_default (ro r a) (ro r b) = ro r (or_default a b).
  Proof using. unfold or_default. replace (falsy (ro r a)) with (falsy a) by (destruct a; reflexivity). destruct (falsy a); reflexivity. Qed.
  Lemma derivative_opt_ro r (self : attrs) n w : derivative_opt self n = Ok w -> ro r w = w.
  Proof using. unfold derivative_opt. destruct (getattr self n) as [v|]; [|discriminate]. destruct v; try discriminate; intros H; injection H as <-; reflexivity. Qed.
  Lemma bounds_opt_ro r h c (self : attrs) w : bounds_opt h c self = Ok w -> ro r w = w.
  Proof using. unfold bounds_opt. destruct (bounds_of h self) as [b|]; [|discriminate]. cbn [bind]. intros H. injection H as <-. destruct c; try reflexivity. match goal with c : mclass |- _ => destruct c; reflexivity end. Qed.

  Definition moved r (s : store) (x : res (store * scall)) : res (store * scall) := match x with Ok (_, c) => Ok (s, rc r c) | Raise e => Raise e end.
  Lemma rk_also' r kw n v w : w = ro r v -> also (rk r kw) n w = match also kw n v with Ok k => Ok (rk r k) | Raise e => Raise e end.
  Proof using. intros ->. apply rk_also. Qed.
  Ltac opens := repeat (rewrite !take_eq; cbv iota beta); repeat (rewrite !rk_ddel || rewrite !(rk_default) by reflexivity).
  Ltac sides := repeat match goal with |- bind ?X _ = moved _ _ (bind ?X _) => destruct X as [?|] eqn:?; [|reflexivity]; cbn [bind] end.
  Ltac alsos := match goal with |- bind (also (rk ?r ?K) ?n ?w) _ = moved _ _ (bind (also ?K ?n ?v) _) =>
     rewrite (rk_also' r K n v w); [destruct (also K n v) as [?|]; [|reflexivity]; cbn [bind]|
       first [reflexivity | symmetry; eapply derivative_opt_ro; eassumption | symmetry; eapply bounds_opt_ro; eassumption
             | rewrite <- ro_if_none; f_equal; symmetry; eapply derivative_opt_ro; eassumption
             | rewrite <- ro_or_default; reflexivity
             | rewrite <- ro_or_default, <- ro_if_none; do 2 f_equal; symmetry; eapply derivative_opt_ro; eassumption ]] end.
  Lemma static_moved r h cls (self : attrs) rest : static rest = true -> forall st s kw,
    exec_chain h cls self rest s (rk r kw) = moved r s (exec_chain h cls self rest st kw).
  Proof using.
    induction rest as [|c rest IH]; intros Hs st s kw; [reflexivity|]. cbn [static forallb] in Hs. apply andb_prop in Hs as (Hc & Hs). specialize (IH Hs).
    destruct c as [| | | | | | | | | | | |c]; try (cbn [exec_chain]; apply IH).
    - cbn [exec_chain]. opens. rewrite rk_dset. sides. rewrite rk_not_again. sides. alsos. alsos. alsos. alsos. alsos. reflexivity.
    - cbn [exec_chain]. opens. sides. alsos. apply IH.
    - cbn [exec_chain]. opens. sides. alsos. apply IH.
    - cbn [exec_chain]. opens. sides. alsos. apply IH.
    - cbn [exec_chain]. opens. sides. alsos. apply IH.
    - destruct c; try discriminate Hc; try (cbn [exec_chain]; apply IH).
      + cbn [exec_chain]. opens.
        match goal with |- context [dupdate (rk r ?K) ?L] => match goal with |- context [dupdate K ?L2] => change L with (rk r L2) end end.
        rewrite rk_dupdate. sides. rewrite rk_not_again. sides. alsos. reflexivity.
      + cbn [exec_chain]. opens. sides. rewrite rk_not_again. sides. alsos. alsos. alsos. reflexivity.
  Qed.

  Lemma rk_same r kw : (forall a, uses kw a -> r a = a) -> rk r kw = kw.
  Proof using.
    intros H. unfold rk. rewrite <- (map_id kw) at 2. apply map_ext_in. intros (n, v) Hn. cbn [fst snd]. f_equal. destruct v; try reflexivity. cbn [ro]. rewrite H; [reflexivity|]. exists n. exact Hn.
  Qed.
  Lemma static_again h cls (self : attrs) rest kw st st' c : static rest = true -> exec_chain h cls self rest st kw = Ok (st', c) ->
    st' = st /\ (forall r s, exec_chain h cls self rest s (rk r kw) = Ok (s, rc r c)) /\ (forall a, uses (ca_kw c) a -> uses kw a).
  Proof using.
    intros Hs H.
    assert (HR : forall r s, exec_chain h cls self rest s (rk r kw) = Ok (s, rc r c)) by (intros r s; rewrite (static_moved r h cls self rest Hs st s kw), H; reflexivity).
    split; [|split; [exact HR|]].
    - pose proof (HR (fun a => a) st) as E. rewrite rk_same in E by reflexivity. rewrite H in E. injection E as E _. exact E.
    - intros a (n & Hn).
      destruct (existsb (fun kv => match snd kv with ODict b => Nat.eqb b a | _ => false end) kw) eqn:Eu.
      + apply existsb_exists in Eu as ((m, v) & Hm & Hv). cbn [snd] in Hv. destruct v; try discriminate. apply Nat.eqb_eq in Hv. subst. exists m. exact Hm.
      + exfalso. set (r := fun b => if Nat.eqb b a then S a else b).
        assert (Hno : ~ uses kw a). { intros (m & Hm). assert (existsb (fun kv => match snd kv with ODict b => Nat.eqb b a | _ => false end) kw = true); [|congruence]. apply existsb_exists. exists (m, ODict a). split; [exact Hm|]. cbn [snd]. apply Nat.eqb_refl. }
        pose proof (HR r st) as E. rewrite rk_same in E.
        2:{ intros b Hb. unfold r. destruct (Nat.eqb_spec b a) as [->|]; [contradiction|reflexivity]. }
        rewrite H in E. injection E as _ E.
        assert (E2 : ca_kw c = rk r (ca_kw c)) by (rewrite E at 1; reflexivity). clear E.
        assert (Hin : forall l, l = rk r l -> ~ In (n, ODict a) l).
        { clear. induction l as [|(k, v) l IH]; intros El; [intros []|]. unfold rk in El. cbn [map fst snd] in El. injection El as Ev El. intros [Hh|Hh]; [|exact (IH El Hh)].
          injection Hh as -> ->. cbn [ro] in Ev. injection Ev as Ev. unfold r in Ev. rewrite Nat.eqb_refl in Ev. lia. }
        exact (Hin _ E2 Hn).
  Qed.
  Lemma see_moved r (s st : store) (c : scall) : (forall a, uses (ca_kw c) a -> nth_error s (r a) = nth_error st a) -> see s (rc r c) = see st c.
  Proof using.
    intros H. unfold see, rc. cbn [ca_function ca_objective ca_x0 ca_kw]. f_equal. unfold rk. rewrite map_map. apply map_ext_in. intros (n, v) Hn. cbn [fst snd]. f_equal. destruct v; try reflexivity. cbn [ro]. rewrite H; [reflexivity|]. exists n. exact Hn.
  Qed.
  Lemma rc_id (c : scall) : rc (fun a => a) c = c.
  Proof using. destruct c as [f1 o1 x1 k1]. unfold rc. cbn [ca_function ca_objective ca_x0 ca_kw]. rewrite rk_same by reflexivity. reflexivity. Qed.

  Definition within kw st : Prop := forall a, uses kw a -> a < List.length st.
  (** What holds of an execution *)
  Definition repeats h (o : object) st kw st' c : Prop :=
    List.length st <= List.length st' /\ (forall b, b < List.length st -> ~ uses kw b -> nth_error st' b = nth_error st b) /\
    (forall s, (forall b, uses kw b -> nth_error s b = nth_error st' b) ->
       exists s' c', one_call h o s kw = Ok (s', c') /\ see s' c' = see st' c /\ List.length s <= List.length s' /\ (forall b, b < List.length s -> nth_error s' b = nth_error s b)).
  Lemma repeats_static h cls (self : attrs) st kw st' c : static (mro cls) = true -> one_call h (Obj cls self) st kw = Ok (st', c) -> repeats h (Obj cls self) st kw st' c.
  Proof using.
    intros Hs H. unfold one_call in H. destruct (static_again _ _ _ _ _ _ _ _ Hs H) as (-> & HR & Hu). split; [lia|]. split; [reflexivity|]. intros s Hb. exists s, c.
    split; [unfold one_call; rewrite <- (rk_same (fun a => a) kw) at 1 by reflexivity; rewrite HR, rc_id; reflexivity|]. split; [|split; [lia|reflexivity]].
    rewrite <- (rc_id c) at 1. apply see_moved. intros a Ha. apply Hb, Hu, Ha.
  Qed.

  Lemma dset_twice d n v : dset (dset d n v) n v = dset d n v.
  Proof using. induction d as [|[k w] d IH]; cbn; [destruct (eq_dec n n); [reflexivity|congruence]|]. destruct (eq_dec n k) as [e|ne]; cbn; [destruct (eq_dec n k); [reflexivity|contradiction]|]. destruct (eq_dec n k); [contradiction|]. rewrite IH. reflexivity. Qed.
  Lemma write_same st a d : nth_error st a = Some d -> write st a d = st.
  Proof using. revert a. induction st as [|e st IH]; intros [|a] H; cbn in *; try discriminate; [congruence|]. rewrite IH by exact H. reflexivity. Qed.
  Lemma default_uses kw n (v : opt U) b : default kw n v = ODict b -> uses kw b \/ v = ODict b.
  Proof using. unfold default. destruct (dget kw n) as [w|] eqn:E; [|auto]. intros ->. left. exists n. apply dget_In. exact E. Qed.
  Lemma if_none_dict (a b : opt U) x : if_none a b = ODict x -> a = ODict x \/ b = ODict x.
  Proof using. destruct a; cbn; auto. Qed.
  Lemma ddel_uses kw n b : uses (ddel kw n) b -> uses kw b.
  Proof using. intros (m & Hm). exists m. apply filter_In in Hm. tauto. Qed.
  Lemma not_dict (w : opt U) : (forall r, ro r w = w) -> forall x, w <> ODict x.
  Proof using. intros H x ->. specialize (H S). cbn in H. injection H as H. lia. Qed.

  Ltac inv H := match type of H with bind ?X _ = _ => let e := fresh "E" in destruct X as [?|] eqn:e; [|discriminate H]; cbn [bind] in H end.
  Lemma also_inv kw n v k : also kw n v = Ok k -> k = (n, v) :: kw.
  Proof using. unfold also. destruct (dmem kw n); [discriminate|]. congruence. Qed.
  Lemma strategy_ro (self : attrs) aj ah : strategy_opt self = Ok (aj, ah) -> (forall x, aj <> ODict x) /\ (forall x, ah <> @ODict U x).
  Proof using. unfold strategy_opt. intros H. inv H. inv H. injection H as H. destruct a, a0; injection H as <- <-; split; discriminate. Qed.
  Lemma nth_error_last (st : store) d : nth_error (st ++ [d]) (List.length st) = Some d.
  Proof using. rewrite nth_error_app2 by lia. rewrite Nat.sub_diag. reflexivity. Qed.

  Lemma repeats_trust h (self : attrs) st kw st' c : within kw st -> one_call h (Obj (Concrete TrustConstr) self) st kw = Ok (st', c) -> repeats h (Obj (Concrete TrustConstr) self) st kw st' c.
  Proof using.
    intros Hw H.
    unfold repeats, one_call in *. match goal with |- context [mro ?X] => let l := eval vm_compute in (mro X) in change (mro X) with l in * end.
    match type of H with context [exec_chain _ _ _ (_ :: ?rest) _ _] => assert (Hs : static rest = true) by reflexivity; set (R := rest) in * end. clearbody R.
    set (O := default (ddel (ddel kw "jacobian") "hessian") "options" ONone). set (J := default kw "jacobian" ONone). set (S0 := default (ddel kw "jacobian") "hessian" ONone).
    set (kw0 := ddel (ddel (ddel kw "jacobian") "hessian") "options").
    assert (HO : forall b, O = ODict b -> uses kw b). { intros b Hb. destruct (default_uses _ _ _ _ Hb) as [Hu|Hu]; [|discriminate]. apply ddel_uses, ddel_uses in Hu. exact Hu. }
    assert (HJ : forall b, J = ODict b -> uses kw b). { intros b Hb. destruct (default_uses _ _ _ _ Hb) as [Hu|Hu]; [|discriminate]. exact Hu. }
    assert (HS : forall b, S0 = ODict b -> uses kw b). { intros b Hb. destruct (default_uses _ _ _ _ Hb) as [Hu|Hu]; [|discriminate]. apply ddel_uses in Hu. exact Hu. }
    assert (Hk0 : forall b, uses kw0 b -> uses kw b) by (intros b Hu; apply ddel_uses, ddel_uses, ddel_uses in Hu; exact Hu).
    (* what follows the dictionary *)
    set (F := fun (opts : opt U) (s : store) =>
        '(aj, ah) <- strategy_opt self ;; wj <- derivative_opt self "wrapped_jacobian" ;; ws <- derivative_opt self "wrapped_hessian" ;;
        k <- also kw0 "options" opts ;; k <- also k "jacobian" (if_none (if_none J aj) wj) ;; k <- also k "hessian" (if_none (if_none S0 ah) ws) ;;
        exec_chain h (Concrete TrustConstr) self R s k).
    assert (HF : forall opts s x, F opts s = Ok x -> exists c0, x = (s, c0) /\ (forall b, uses (ca_kw c0) b -> uses kw b \/ opts = ODict b) /\
       forall r s2, (forall b, uses kw b -> r b = b) -> F (ro r opts) s2 = Ok (s2, rc r c0)).
    { intros opts s x Hx. unfold F in Hx |- *. match type of Hx with bind ?X _ = _ => destruct X as [[aj ah]|] eqn:E; [|discriminate Hx]; cbn [bind] in Hx end. destruct (strategy_ro _ _ _ E) as (Naj & Nah). inv Hx. inv Hx. inv Hx. inv Hx. inv Hx. 
      pose proof (not_dict _ (fun r => derivative_opt_ro r _ _ _ E0)) as Nwj. pose proof (not_dict _ (fun r => derivative_opt_ro r _ _ _ E1)) as Nws.
      pose proof (also_inv _ _ _ _ E2) as K1. pose proof (also_inv _ _ _ _ E3) as K2. pose proof (also_inv _ _ _ _ E4) as K3.
      destruct x as (s0, c0). destruct (static_again _ _ _ _ _ _ _ _ Hs Hx) as (-> & HR & Hu). exists c0. split; [reflexivity|].
      assert (Hv : forall b, uses (ca_kw c0) b -> uses kw b \/ opts = ODict b).
      { intros b Hb. apply Hu in Hb. rewrite K3, K2, K1 in Hb. destruct Hb as (n & [Hn|[Hn|[Hn|Hn]]]).
        - apply (f_equal snd) in Hn. cbn [snd] in Hn. apply if_none_dict in Hn as [Hn|Hn]; [|exfalso; exact (Nws _ Hn)]. apply if_none_dict in Hn as [Hn|Hn]; [auto|exfalso; exact (Nah _ Hn)].
        - apply (f_equal snd) in Hn. cbn [snd] in Hn. apply if_none_dict in Hn as [Hn|Hn]; [|exfalso; exact (Nwj _ Hn)]. apply if_none_dict in Hn as [Hn|Hn]; [auto|exfalso; exact (Naj _ Hn)].
        - apply (f_equal snd) in Hn. auto.
        - left. apply Hk0. exists n. exact Hn. }
      split; [exact Hv|]. intros r s2 Hr. cbn [bind].
      assert (Hkw0 : rk r kw0 = kw0) by (apply rk_same; intros b Hb; apply Hr, Hk0, Hb).
      rewrite <- Hkw0. rewrite rk_also, E2. cbn [bind].
      assert (A1 : if_none (if_none J aj) a = ro r (if_none (if_none J aj) a)).
      { destruct (if_none (if_none J aj) a) eqn:Ej; try reflexivity. cbn [ro]. f_equal. symmetry. apply Hr. apply if_none_dict in Ej as [Ej|Ej]; [|exfalso; exact (Nwj _ Ej)]. apply if_none_dict in Ej as [Ej|Ej]; [auto|exfalso; exact (Naj _ Ej)]. }
      assert (A2 : if_none (if_none S0 ah) a0 = ro r (if_none (if_none S0 ah) a0)).
      { destruct (if_none (if_none S0 ah) a0) eqn:Ej; try reflexivity. cbn [ro]. f_equal. symmetry. apply Hr. apply if_none_dict in Ej as [Ej|Ej]; [|exfalso; exact (Nws _ Ej)]. apply if_none_dict in Ej as [Ej|Ej]; [auto|exfalso; exact (Nah _ Ej)]. }
      rewrite (rk_also' r _ _ _ _ A1), E3. cbn [bind]. rewrite (rk_also' r _ _ _ _ A2), E4. cbn [bind]. apply HR. }
    assert (HH : forall s, exec_chain h (Concrete TrustConstr) self (Concrete TrustConstr :: R) s kw =
       let '(options, st) := if is_none O then (ODict (List.length s), s ++ [[]]) else (O, s) in
       '(a, d) <- read st options ;; F options (write st a (dset d "sparse_jacobian" OFalse))).
    { intros s. cbn [exec_chain]. reflexivity. }
    rewrite HH in H. setoid_rewrite HH. clear HH. clearbody F. clear Hk0 HJ HS. clearbody J S0 kw0.
    clearbody O. destruct O as [| | | | | | | | | | |a]; cbn [is_none] in H |- *; try discriminate H.
    - cbn [read] in H. rewrite nth_error_last in H. cbn [of_opt bind] in H.
      assert (Hl : List.length st < List.length (st ++ [[]])) by (rewrite app_length; cbn [List.length]; lia).
      destruct (HF _ _ _ H) as (c0 & Ex & Hu & HR). apply pair_equal_spec in Ex as (-> & ->).
      split; [rewrite write_length, app_length; lia|].
      split; [intros b Hb _; rewrite write_other by lia; apply nth_error_app1; exact Hb|].
      intros s Hsame. cbn [read]. rewrite nth_error_last. cbn [of_opt bind].
      set (r := fun b => if Nat.eqb b (List.length st) then List.length s else b).
      assert (Hr : forall b, uses kw b -> r b = b). { intros b Hb. apply Hw in Hb. unfold r. destruct (Nat.eqb_spec b (List.length st)); lia. }
      assert (Hra : r (List.length st) = List.length s) by (unfold r; rewrite Nat.eqb_refl; reflexivity).
      assert (Hls : List.length s < List.length (s ++ [[]])) by (rewrite app_length; cbn [List.length]; lia).
      eexists _, _. split; [rewrite <- Hra; apply (HR r _ Hr)|]. rewrite Hra.
      assert (Hold : forall b, b < List.length s -> nth_error (write (s ++ [[]]) (List.length s) (dset [] "sparse_jacobian" OFalse)) b = nth_error s b).
      { intros b Hb. rewrite write_other by lia. apply nth_error_app1. exact Hb. }
      split; [|split; [rewrite write_length, app_length; lia|exact Hold]].
      apply see_moved. intros b Hb. destruct (Hu b Hb) as [Hb'|Hb'].
      + rewrite (Hr b Hb'). rewrite <- (Hsame b Hb'). apply Hold. apply nth_error_Some. rewrite (Hsame b Hb'). apply nth_error_Some. rewrite write_length, app_length. apply Hw in Hb'. lia.
      + injection Hb' as <-. rewrite Hra, !write_at by assumption. reflexivity.
    - cbn [read] in H. destruct (nth_error st a) as [d|] eqn:Ea; [|discriminate H]. cbn [of_opt bind] in H.
      assert (Hl : a < List.length st) by (apply nth_error_Some; congruence).
      destruct (HF _ _ _ H) as (c0 & Ex & Hu & HR). apply pair_equal_spec in Ex as (-> & ->).
      split; [rewrite write_length; lia|].
      split; [intros b Hb Hn; apply write_other; intros ->; apply Hn, HO; reflexivity|].
      intros s Hsame. pose proof (Hsame a (HO a eq_refl)) as Hsa. rewrite write_at in Hsa by exact Hl. cbn [read]. rewrite Hsa. cbn [of_opt bind]. rewrite dset_twice, write_same by exact Hsa.
      exists s, c0. split; [pose proof (HR (fun b => b) s (fun _ _ => eq_refl)) as HR0; cbn [ro] in HR0; rewrite rc_id in HR0; exact HR0|].
      split; [|split; [lia|reflexivity]].
      rewrite <- (rc_id c0) at 1. apply see_moved. intros b Hb. apply Hsame. destruct (Hu b Hb) as [Hb'|Hb']; [exact Hb'|apply HO; exact Hb'].
  Qed.

  Lemma dset_has d n v m : dmem d m = true -> dmem (dset d n v) m = true.
  Proof using. rewrite !dmem_dget, dget_dset. destruct (eq_dec m n); [reflexivity|auto]. Qed.
  Lemma dset_new d n v : dmem (dset d n v) n = true.
  Proof using. rewrite dmem_dget, dget_dset_eq. reflexivity. Qed.
  Lemma complete_twice h (local : object) d d' : complete h local d = Ok d' -> complete h local d' = Ok d'.
  Proof using.
    unfold complete. destruct local as [[| | | | | | | | | | | |c] sl]; try discriminate.
    set (d1 := if dmem d "method" then d else dset d "method" (OText (method_name c))).
    assert (H1 : dmem d1 "method" = true) by (unfold d1; destruct (dmem d "method") eqn:E; [exact E|apply dset_new]). clearbody d1.
    destruct (if negb (dmem d1 "jac") && is_gradient c then j <- derivative_opt sl "wrapped_jacobian" ;; Ok (dset d1 "jac" j) else Ok d1) as [d2|] eqn:E2; [|discriminate]. cbn [bind].
    assert (H2 : dmem d2 "method" = true /\ negb (dmem d2 "jac") && is_gradient c = false).
    { destruct (negb (dmem d1 "jac") && is_gradient c) eqn:Eb; [inv E2; injection E2 as <-; split; [apply dset_has; exact H1|rewrite dset_new; reflexivity]|injection E2 as <-; split; assumption]. }
    clear E2 H1 d1.
    match goal with |- bind ?X _ = _ -> _ => destruct X as [d3|] eqn:E3; [|discriminate] end. cbn [bind].
    assert (H3 : dmem d3 "method" = true /\ negb (dmem d3 "jac") && is_gradient c = false /\ negb (dmem d3 "constraints") && is_constrained c = false).
    { destruct (negb (dmem d2 "constraints") && is_constrained c) eqn:Eb; [|injection E3 as <-; tauto]. inv E3. injection E3 as <-. destruct H2 as (H2 & H2'). split; [apply dset_has; exact H2|]. rewrite dset_new. split; [|reflexivity].
      destruct (dmem d2 "jac") eqn:Ej; [rewrite (dset_has _ _ _ _ Ej); reflexivity|]. cbn [negb andb] in H2'. rewrite H2'. apply Bool.andb_false_r. }
    clear E3 H2 d2. intros H.
    assert (H4 : dmem d' "method" = true /\ negb (dmem d' "jac") && is_gradient c = false /\ negb (dmem d' "constraints") && is_constrained c = false /\ negb (dmem d' "bounds") && is_bounded c = false).
    { destruct (negb (dmem d3 "bounds") && is_bounded c) eqn:Eb; [|injection H as <-; tauto]. inv H. injection H as <-. destruct H3 as (H3 & H3' & H3''). split; [apply dset_has; exact H3|]. rewrite dset_new. split; [|split; [|reflexivity]].
      - destruct (dmem d3 "jac") eqn:Ej; [rewrite (dset_has _ _ _ _ Ej); reflexivity|]. cbn [negb andb] in H3'. rewrite H3'. apply Bool.andb_false_r.
      - destruct (dmem d3 "constraints") eqn:Ej; [rewrite (dset_has _ _ _ _ Ej); reflexivity|]. cbn [negb andb] in H3''. rewrite H3''. apply Bool.andb_false_r. }
    destruct H4 as (-> & -> & H5 & H6). cbn [bind]. rewrite H5. cbn [bind]. rewrite H6. reflexivity.
  Qed.

  Lemma dset_uses kw n v b : uses (dset kw n v) b -> uses kw b \/ v = ODict b.
  Proof using.
    intros (m & Hm). induction kw as [|[k w] kw IH]; cbn in Hm.
    - destruct Hm as [Hm|[]]. right. congruence.
    - destruct (eq_dec n k); cbn in Hm; destruct Hm as [Hm|Hm].
      + right. congruence.
      + left. exists m. right. exact Hm.
      + left. exists m. left. exact Hm.
      + destruct (IH Hm) as [(m' & Hm')|]; [|auto]. left. exists m'. right. exact Hm'.
  Qed.
  Lemma repeats_basin h (self : attrs) st kw st' c : within kw st -> one_call h (Obj (Concrete BasinHopping) self) st kw = Ok (st', c) -> repeats h (Obj (Concrete BasinHopping) self) st kw st' c.
  Proof using.
    intros Hw H.
    unfold repeats, one_call in *. match goal with |- context [mro ?X] => let l := eval vm_compute in (mro X) in change (mro X) with l in * end.
    match type of H with context [exec_chain _ _ _ (_ :: ?rest) _ _] => set (R := rest) in * end. clearbody R.
    cbn [exec_chain] in H |- *.
    destruct (dmem kw "minimizer_kwargs") eqn:Ek.
    - inv H. destruct a as [| | | | | | | | | | |a]; try discriminate H. cbn [read] in H |- *. destruct (nth_error st a) as [d|] eqn:Ea; [|discriminate H]. cbn [of_opt bind] in H.
      assert (Hua : uses kw a) by (exists "minimizer_kwargs"; apply dget_In; unfold dlook in E; destruct (dget kw "minimizer_kwargs"); [injection E as ->; reflexivity|discriminate E]).
      assert (Hl : a < List.length st) by (apply nth_error_Some; congruence).
      inv H. destruct a0; try discriminate H. inv H. inv H. inv H. inv H. injection H as <- <-.
      split; [rewrite write_length; lia|]. split; [intros b Hb Hn; apply write_other; intros ->; exact (Hn Hua)|].
      intros s Hsame. pose proof (Hsame a Hua) as Hsa. rewrite write_at in Hsa by exact Hl. cbn [bind read]. rewrite Hsa. cbn [of_opt bind]. rewrite (complete_twice _ _ _ _ E1). cbn [bind].
      eexists _, _. split; [reflexivity|]. rewrite write_same by exact Hsa.
      match goal with |- see _ ?C = _ /\ _ => set (c0 := C); split; [|split; [lia|reflexivity]]; rewrite <- (rc_id c0) at 1 end. apply see_moved. intros b Hb. apply Hsame. exact Hb.
    - assert (HL : forall a : nat, dlook (dset kw "minimizer_kwargs" (ODict a)) "minimizer_kwargs" = Ok (ODict a)) by (intros a; unfold dlook; rewrite dget_dset_eq; reflexivity).
      rewrite HL in H. setoid_rewrite HL. cbn [bind read] in H |- *. rewrite nth_error_last in H. cbn [of_opt bind] in H. setoid_rewrite nth_error_last. cbn [of_opt bind].
      inv H. destruct a; try discriminate H. inv H. inv H. inv H. inv H. injection H as <- <-. cbn [bind].
      split; [rewrite write_length, app_length; lia|]. split; [intros b Hb _; rewrite write_other by lia; apply nth_error_app1; exact Hb|].
      intros s Hsame. set (r := fun b => if Nat.eqb b (List.length st) then List.length s else b).
      assert (Hr : forall b, uses kw b -> r b = b). { intros b Hb. apply Hw in Hb. unfold r. destruct (Nat.eqb_spec b (List.length st)); lia. }
      assert (Hra : r (List.length st) = List.length s) by (unfold r; rewrite Nat.eqb_refl; reflexivity).
      assert (Hkr : dset kw "minimizer_kwargs" (ODict (List.length s)) = rk r (dset kw "minimizer_kwargs" (ODict (List.length st)))).
      { rewrite <- rk_dset. cbn [ro]. rewrite Hra. rewrite rk_same by exact Hr. reflexivity. }
      rewrite Hkr, rk_not_again, E3. cbn [bind].
      pose proof E0 as E0b. cbv beta in E0b. match goal with |- context [complete h o ?x] => change x with (@nil (string * opt U)) end. setoid_rewrite E0. cbn [bind]. eexists _, _. split; [reflexivity|].
      assert (Hold : forall b, b < List.length s -> nth_error (write (s ++ [[]]) (List.length s) a) b = nth_error s b).
      { intros b Hb. rewrite write_other by lia. apply nth_error_app1. exact Hb. }
      split; [|split; [rewrite write_length, app_length; lia|exact Hold]].
      match goal with |- _ = see _ ?C => set (c0 := C); apply (see_moved r _ _ c0) end. intros b Hb. apply dset_uses in Hb as [Hb'|Hb'].
      + rewrite (Hr b Hb'). rewrite <- (Hsame b Hb'). apply Hold. apply nth_error_Some. rewrite (Hsame b Hb'). apply nth_error_Some. rewrite write_length, app_length. apply Hw in Hb'. lia.
      + injection Hb' as <-. rewrite Hra, !write_at by (rewrite app_length; cbn [List.length]; lia). reflexivity.
  Qed.

  Theorem repeats_call h (o : object) st kw st' c : within kw st -> one_call h o st kw = Ok (st', c) -> repeats h o st kw st' c.
  Proof using.
    intros Hw H. destruct o as [[| | | | | | | | | | | |[]] self]; try (apply repeats_static; [reflexivity|exact H]); [apply repeats_trust|apply repeats_basin]; assumption.
  Qed.
End Again.
