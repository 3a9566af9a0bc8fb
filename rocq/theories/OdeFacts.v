(** * OdeFacts: construction of an ODE model and the problem handed to the integrator. *)
From Coq Require Import Reals Lra Sorted.
From Coquelicot Require Import Coquelicot.
From Verif Require Import PyBase PyFacts Toposort Signature SignatureFacts Expr Model ModelSpec ModelFacts CallFacts ModelMisc ExprR Jacobian JacAnalysis Ode OdeSpec OdeTimes.
Local Open Scope R_scope.
Local Open Scope list_scope.

Lemma dedup_const {X} (t : sym) (l : list X) : l <> [] -> dedup (map (fun _ => t) l) = [t].
Proof.
  destruct l as [|kv l]; [contradiction|intros _]. simpl. f_equal. induction l as [|a l IH]; [reflexivity|].
  simpl. rewrite eqb_refl. simpl. rewrite filter_true; [exact IH|]. intros x Hx. apply filter_In in Hx. tauto.
Qed.
Lemma NoDup_app_intro' {A} (l m : list A) : NoDup l -> NoDup m -> (forall x, In x l -> ~ In x m) -> NoDup (l ++ m).
Proof.
  intros Hl Hm Hd. induction Hl as [|a l Ha Hl IH]; [exact Hm|]. simpl. constructor.
  - rewrite in_app_iff. intros [H|H]; [contradiction|]. apply (Hd a); [left; reflexivity|exact H].
  - apply IH. intros x Hx. apply Hd. right; exact Hx.
Qed.

Lemma mapM_of_map {X Y Z} (f : Y -> res Z) (g : X -> Y) l : mapM f (map g l) = mapM (fun x => f (g x)) l.
Proof. induction l as [|x l IH]; [reflexivity|]. simpl. rewrite IH. reflexivity. Qed.

Section Init.
  Context (ord : list sym -> list sym) (items : dict odkey expr) (initial : dict sym oinit) (user : dict string optval) (t : sym).
  Hypothesis Ho : set_order ord.
  Hypothesis Hf : first_order items t.
  Hypothesis Hin : initial_ok initial.
  Hypothesis Hn : ode_names items initial t.

  Lemma deps_ok : mapM (fun kv => dep_of (fst kv)) items = Ok (unknowns items).
  Proof using Hf.
    unfold unknowns. apply mapM_map. intros [d e] Hd. unfold dep_of. simpl. destruct Hf as (_ & _ & Ht & _ & H & _).
    destruct (H d e Hd) as (Hv & _). rewrite Hv. replace (inb (od_y d) [t]) with false; [reflexivity|]. symmetry. apply inb_false.
    intros [He|[]]. apply Ht. rewrite He. apply in_map_iff. exists (d, e). auto.
  Qed.
  Lemma vars_ok : mapM (fun kv => var_of (fst kv)) items = Ok (map (fun _ => t) items).
  Proof using Hf.
    apply mapM_map. intros [d e] Hd. unfold var_of. simpl. destruct Hf as (_ & _ & _ & _ & H & _).
    destruct (H d e Hd) as (Hv & _). rewrite Hv. reflexivity.
  Qed.
  Lemma indep_ok : sort_by sname (ord (dedup (map (fun _ : odkey * expr => t) items))) = [t].
  Proof using Ho Hf.
    destruct Hf as (Hne & _). pose proof (dedup_const t items Hne) as Hd.
    rewrite Hd. pose proof (Ho [t]) as Hp. apply Permutation_sym in Hp. apply Permutation_length_1_inv in Hp. rewrite Hp. reflexivity.
  Qed.

  Definition eq_params := dedup (flat_map (fun kv : odkey * expr => snd (seperate_symbols ord (snd kv))) items).
  Definition in_params := dedup (flat_map (fun kv : sym * oinit => init_param (snd kv)) initial).

  Lemma eq_params_iff p : In p eq_params <-> eq_param items p.
  Proof using Ho.
    unfold eq_params, eq_param. rewrite in_dedup, in_flat_map. split.
    - intros ([d e] & Hd & Hp). simpl in Hp. unfold seperate_symbols in Hp. cbn [snd] in Hp.
      rewrite in_sort_by, filter_In in Hp. rewrite (in_ord ord) in Hp by exact Ho. destruct Hp as [Hp Hpar]. apply in_free_symbols in Hp as (s & Hs & ->).
      split; [exact Hpar|]. exists d, e. split; [exact Hd|]. destruct s; simpl in *; auto; discriminate.
    - intros (Hpar & d & e & Hd & Hp). exists (d, e). split; [exact Hd|]. unfold seperate_symbols. cbn [snd].
      rewrite in_sort_by, filter_In, (in_ord ord) by exact Ho. split; [|exact Hpar]. apply in_free_symbols. exists p. split; [exact Hp|].
      destruct p; simpl in *; congruence.
  Qed.
  Lemma in_params_iff' p : In p in_params <-> init_par initial p.
  Proof.
    unfold in_params, init_par. rewrite in_dedup, in_flat_map. split.
    - intros ([y i] & Hy & Hp). destruct i as [r|q]; simpl in Hp; [contradiction|]. destruct Hp as [->|[]]. eauto.
    - intros (y & Hy). exists (y, IPar p). split; [exact Hy|left; reflexivity].
  Qed.
  Lemma all_params_iff p : In p (sort_by sname (ord (dedup (eq_params ++ in_params)))) <-> problem_param items initial p.
  Proof using Ho.
    rewrite in_sort_by, (in_ord ord), in_dedup, in_app_iff, eq_params_iff, in_params_iff' by exact Ho. reflexivity.
  Qed.

  Lemma sorted_nodup l : NoDup l -> NoDup (sort_by sname (ord l)).
  Proof using Ho. intros H. apply NoDup_sort_by. eapply Permutation_NoDup; [symmetry; apply Ho|exact H]. Qed.

  Lemma names_nodup l : NoDup l -> (forall s, In s l -> ode_symbol items initial t s) -> NoDup (map sname l).
  Proof using Hn.
    intros Hnd Hs. induction Hnd as [|x l Hx Hnd IH]; simpl; constructor.
    - intros Hin'. apply in_map_iff in Hin' as (y & He & Hy). apply Hx. replace x with y; [exact Hy|].
      apply Hn; [apply Hs; right; exact Hy|apply Hs; left; reflexivity|exact He].
    - apply IH. intros; apply Hs; right; assumption.
  Qed.

  Lemma param_is_par p : problem_param items initial p -> is_par p = true.
  Proof using Hin. intros [[H _]|(y & Hy)]; [exact H|]. destruct Hin as [_ H]. eauto. Qed.
  Lemma unknown_not_par y : In y (unknowns items) -> is_par y = false.
  Proof using Hf.
    intros Hy. apply in_map_iff in Hy as ([d e] & <- & Hd). destruct Hf as (_ & _ & _ & _ & H & _). apply (H d e Hd).
  Qed.

  Lemma args_nodup l : NoDup l -> (forall p, In p l -> problem_param items initial p) ->
    NoDup (map sname (t :: l)).
  Proof using Hf Hin Hn.
    intros Hnd Hl. apply names_nodup.
    - constructor; [|exact Hnd]. intros H. apply Hl, param_is_par in H. destruct Hf as (_ & _ & _ & H' & _). congruence.
    - intros s [<-|Hs]; [left; reflexivity|right; right; auto].
  Qed.

  Lemma init_ode_ok : exists m, init_ode ord items initial user = Ok m /\
    o_dict m = sort_by (fun kv => sname (od_y (fst kv))) items /\ o_initial m = initial /\
    o_opts m = integrator_opts user /\ o_indep m = [t] /\ o_dep m = sort_by sname (unknowns items) /\
    o_model_params m = sort_by sname (ord eq_params) /\ o_initial_params m = sort_by sname (ord in_params) /\
    o_params m = sort_by sname (ord (dedup (eq_params ++ in_params))) /\
    o_sig m = required (map sname (t :: o_params m)).
  Proof using Ho Hf Hin Hn.
    unfold init_ode. rewrite deps_ok, vars_ok. cbn [bind]. rewrite indep_ok. cbn [List.length Nat.eqb].
    fold eq_params. fold in_params. rewrite make_signature_intro.
    - cbn [bind]. eexists. split; [reflexivity|]. cbn. repeat split; reflexivity.
    - cbn [app]. apply args_nodup; [apply sorted_nodup, NoDup_dedup|]. intros p. apply all_params_iff.
  Qed.

  Context (m : ode).
  Hypothesis Hm : init_ode ord items initial user = Ok m.

  Lemma init_ode_inv : o_dict m = sort_by (fun kv => sname (od_y (fst kv))) items /\ o_initial m = initial /\
    o_opts m = integrator_opts user /\ o_indep m = [t] /\ o_dep m = sort_by sname (unknowns items) /\
    o_model_params m = sort_by sname (ord eq_params) /\ o_initial_params m = sort_by sname (ord in_params) /\
    o_params m = sort_by sname (ord (dedup (eq_params ++ in_params))) /\
    o_sig m = required (map sname (t :: o_params m)).
  Proof using Ho Hf Hin Hn Hm. destruct init_ode_ok as (m' & Hm' & H). rewrite Hm in Hm'. inv Hm'. exact H. Qed.

  Lemma in_dep y : In y (o_dep m) <-> In y (unknowns items).
  Proof using Ho Hf Hin Hn Hm. destruct init_ode_inv as (_ & _ & _ & _ & -> & _). apply in_sort_by. Qed.
  Lemma nodup_dep : NoDup (o_dep m).
  Proof using Ho Hf Hin Hn Hm. destruct init_ode_inv as (_ & _ & _ & _ & -> & _). apply NoDup_sort_by. apply Hf. Qed.
  Lemma in_mparams p : In p (o_model_params m) <-> eq_param items p.
  Proof using Ho Hf Hin Hn Hm. destruct init_ode_inv as (_ & _ & _ & _ & _ & -> & _). rewrite in_sort_by, (in_ord ord) by exact Ho. apply eq_params_iff. Qed.
  Lemma in_iparams p : In p (o_initial_params m) <-> init_par initial p.
  Proof using Ho Hf Hin Hn Hm. destruct init_ode_inv as (_ & _ & _ & _ & _ & _ & -> & _). rewrite in_sort_by, (in_ord ord) by exact Ho. apply in_params_iff'. Qed.
  Lemma in_oparams p : In p (o_params m) <-> problem_param items initial p.
  Proof using Ho Hf Hin Hn Hm. destruct init_ode_inv as (_ & _ & _ & _ & _ & _ & _ & -> & _). apply all_params_iff. Qed.

  Lemma args_names : NoDup (map sname (ode_args m)).
  Proof using Ho Hf Hin Hn Hm.
    unfold ode_args. destruct init_ode_inv as (_ & _ & _ & Hi & _ & Hmp & _). rewrite Hi. cbn [app]. apply names_nodup.
    - constructor.
      + rewrite in_app_iff, in_dep, in_mparams. destruct Hf as (_ & _ & Ht & Htp & _). intros [H|[H _]]; [contradiction|congruence].
      + apply NoDup_app_intro'; [apply nodup_dep| |].
        * rewrite Hmp. apply sorted_nodup, NoDup_dedup.
        * intros y Hy Hp. apply in_dep, unknown_not_par in Hy. apply in_mparams in Hp as [Hp _]. congruence.
    - intros s [<-|Hs]; [left; reflexivity|]. apply in_app_or in Hs as [Hs|Hs]; [right; left; apply in_dep; exact Hs|].
      right; right; left. apply in_mparams; exact Hs.
  Qed.

  (** [m[y]] is the right-hand side of the equation of [y]. *)
  Lemma getitem_ok d e : In (d, e) items -> ode_getitem m (od_y d) = Some e.
  Proof using Ho Hf Hin Hn Hm.
    intros Hd. unfold ode_getitem. destruct init_ode_inv as (-> & _).
    destruct (find _ _) as [[d' e']|] eqn:E.
    - apply find_some in E as [E1 E2]. simpl in *. apply (proj1 (eqb_true _ _)) in E2. f_equal.
      rewrite in_sort_by in E1. destruct Hf as (_ & Hnd & _).
      assert (Heq : (d', e') = (d, e)); [|congruence]. clear -Hnd Hd E1 E2. unfold unknowns in Hnd.
      revert Hd E1 E2 Hnd. generalize items. intros l Hd E1 E2 Hnd. induction l as [|kv l IH]; [contradiction|]. inv Hnd.
      destruct Hd as [->|Hd], E1 as [->|E1]; auto.
      + exfalso. apply H1. simpl. rewrite E2. apply in_map_iff. exists (d', e'). auto.
      + exfalso. apply H1. simpl. rewrite <- E2. apply in_map_iff. exists (d, e). auto.
    - exfalso. pose proof (find_none _ _ E (d, e) (proj2 (in_sort_by _ _ _) Hd)) as H0. simpl in H0. rewrite eqb_refl in H0. discriminate.
  Qed.
  Lemma getitem_none v : ~ In v (unknowns items) -> ode_getitem m v = None.
  Proof using Ho Hf Hin Hn Hm.
    intros Hv. unfold ode_getitem. destruct init_ode_inv as (-> & _). destruct (find _ _) as [[d' e']|] eqn:E; [|reflexivity].
    apply find_some in E as [E1 E2]. apply (proj1 (eqb_true _ _)) in E2. rewrite in_sort_by in E1. exfalso. apply Hv. rewrite E2.
    apply in_map_iff. exists (d', e'). auto.
  Qed.

  (** Right-hand side of an unknown. *)
  Definition rhs (y : sym) : expr := match ode_getitem m y with Some e => e | None => ENum 0 end.
  Lemma rhs_item y : In y (o_dep m) -> exists d, In (d, rhs y) items /\ od_y d = y /\ ode_getitem m y = Some (rhs y).
  Proof using Ho Hf Hin Hn Hm.
    intros Hy. apply in_dep in Hy. apply in_map_iff in Hy as ([d e] & <- & Hd). simpl. unfold rhs. rewrite (getitem_ok d e Hd). exists d. auto.
  Qed.

  Lemma positional e env : (forall s, In s (occs e) -> In s (ode_args m)) ->
    call_positional (Some e) (ode_args m) (map env (ode_args m)) = Ok (eval Ralg env e).
  Proof using Ho Hf Hin Hn Hm.
    intros Hs. unfold call_positional. rewrite (proj2 (nodupb_iff _) args_names). rewrite map_length, Nat.eqb_refl.
    rewrite <- named_combine. apply eval_kw_ok. intros s Hi. apply dget_named; [apply args_names|auto].
  Qed.
  Lemma rhs_symbols y s : In y (o_dep m) -> In s (occs (rhs y)) -> In s (ode_args m).
  Proof using Ho Hf Hin Hn Hm.
    intros Hy Hs. destruct (rhs_item y Hy) as (d & Hd & _). destruct Hf as (_ & _ & _ & _ & _ & Hocc).
    unfold ode_args. destruct init_ode_inv as (_ & _ & _ & -> & _). cbn [app]. destruct (Hocc d _ s Hd Hs) as [->|[H|H]].
    - left; reflexivity.
    - right. apply in_or_app. left. apply in_dep; exact H.
    - right. apply in_or_app. right. apply in_mparams. split; [exact H|]. exists d, (rhs y). auto.
  Qed.

  Context (inp : sym -> R).
  Definition margs : list R := map inp (o_model_params m).

  (** Environment with the unknowns given by [ys]. *)
  Definition env_of (u : R) (val : sym -> R) : sym -> R :=
    fun s => if eq_dec s t then u else if inb s (unknowns items) then val s else inp s.
  Lemma env_args u val : u :: map val (o_dep m) ++ margs = map (env_of u val) (ode_args m).
  Proof using Ho Hf Hin Hn Hm.
    unfold ode_args. destruct init_ode_inv as (_ & _ & _ & -> & _). cbn [app map]. rewrite map_app. unfold env_of at 1.
    destruct (eq_dec t t); [|contradiction]. f_equal. f_equal.
    - apply map_ext_in. intros y Hy. apply in_dep in Hy. unfold env_of. destruct Hf as (_ & _ & Ht & _).
      destruct (eq_dec y t) as [->|_]; [contradiction|]. rewrite (proj2 (inb_In _ _) Hy). reflexivity.
    - apply map_ext_in. intros p Hp. apply in_mparams in Hp as [Hp _]. unfold env_of. destruct Hf as (_ & _ & _ & Htp & _).
      destruct (eq_dec p t) as [->|_]; [congruence|]. destruct (inb p (unknowns items)) eqn:E; [|reflexivity].
      apply inb_In, unknown_not_par in E. congruence.
  Qed.

  Lemma system_val u val : system m u (map val (o_dep m)) margs = Ok (map (fun y => eval Ralg (env_of u val) (rhs y)) (o_dep m)).
  Proof using Ho Hf Hin Hn Hm.
    unfold system, ode_values, ode_keys. rewrite env_args.
    rewrite mapM_of_map.
    apply mapM_map. intros y Hy. destruct (rhs_item y Hy) as (d & Hd & _ & ->). apply positional. intros s. apply rhs_symbols; exact Hy.
  Qed.

  Lemma diff_total ds e : (forall s, exists e', ds s = Ok e') -> exists e', diff ds e = Ok e'.
  Proof.
    intros H. induction e as [z|s|a [a' IHa] b [b' IHb]|a [a' IHa] b [b' IHb]|a [a' IHa] n|a [a' IHa]|f a [a' IHa]]; simpl; eauto;
      rewrite IHa; try rewrite IHb; cbn [bind]; eauto.
  Qed.
  Lemma diff_occs v e : forall e', diff (dsym v) e = Ok e' -> forall s, In s (occs e') -> In s (occs e).
  Proof.
    induction e as [z|s|a IHa b IHb|a IHa b IHb|a IHa n|a IHa|f a IHa]; simpl; intros e' He s' Hs.
    - inv He. destruct Hs.
    - unfold dsym in He. inv He. destruct Hs.
    - apply bind_Ok in He as (a' & Ha & He). apply bind_Ok in He as (b' & Hb & He). inv He. simpl in Hs.
      apply in_app_or in Hs. apply in_or_app. destruct Hs; [left; eapply IHa; eauto|right; eapply IHb; eauto].
    - apply bind_Ok in He as (a' & Ha & He). apply bind_Ok in He as (b' & Hb & He). inv He. simpl in Hs.
      repeat (apply in_app_or in Hs; destruct Hs as [Hs|Hs]); apply in_or_app; eauto.
    - apply bind_Ok in He as (a' & Ha & He). inv He. destruct n; simpl in Hs; [contradiction|].
      repeat (apply in_app_or in Hs; destruct Hs as [Hs|Hs]); eauto; contradiction.
    - apply bind_Ok in He as (a' & Ha & He). inv He. simpl in Hs.
      repeat (apply in_app_or in Hs; destruct Hs as [Hs|Hs]); eauto; contradiction.
    - apply bind_Ok in He as (a' & Ha & He). inv He. destruct f; simpl in Hs;
      repeat (apply in_app_or in Hs; destruct Hs as [Hs|Hs]); eauto; contradiction.
  Qed.

  Context (simp : expr -> expr).
  Hypothesis Hsimp : simp_ok simp.

  (** The derivative of a right-hand side. *)
  Definition drhs (v y : sym) : expr := match diff (dsym v) (rhs y) with Ok d => simp d | Raise _ => ENum 0 end.
  Lemma diff_system_val u val : diff_system simp m u (map val (o_dep m)) margs =
    Ok (map (fun y => map (fun v => eval Ralg (env_of u val) (drhs v y)) (o_dep m)) (o_dep m)).
  Proof using Ho Hf Hin Hn Hm Hsimp.
    unfold diff_system, ode_values, ode_keys. rewrite env_args.
    rewrite mapM_of_map.
    apply mapM_map. intros y Hy. apply mapM_map. intros v Hv. destruct (rhs_item y Hy) as (d & Hd & _ & ->). unfold odiff, drhs.
    destruct (diff_total (dsym v) (rhs y)) as (e' & He'); [intros s; unfold dsym; eauto|]. rewrite He'. cbn [bind].
    apply positional. intros s Hs. apply (rhs_symbols y); [exact Hy|]. apply (diff_occs v _ _ He'). apply (proj1 Hsimp). exact Hs.
  Qed.

  (** The Jacobian is that of the system. *)
  Lemma drhs_derive u val v y : In v (o_dep m) -> In y (o_dep m) -> defined (env_of u val) (rhs y) ->
    is_derive (fun x => eval Ralg (env_of u (fun s => if eq_dec s v then x else val s)) (rhs y)) (val v)
              (eval Ralg (env_of u val) (drhs v y)).
  Proof using Ho Hf Hin Hn Hm Hsimp.
    intros Hv Hy Hdef. unfold drhs. destruct (diff_total (dsym v) (rhs y)) as (e' & He'); [intros s; unfold dsym; eauto|]. rewrite He'.
    assert (Hd' : defined (env_of u val) e').
    { eapply diff_defined; [|exact Hdef|exact He']. intros s e1 _ H. unfold dsym in H. inv H. exact I. }
    destruct (proj2 Hsimp _ _ Hd') as [_ ->].
    assert (Hsame : forall s, env_of u (fun s => if eq_dec s v then val v else val s) s = env_of u val s).
    { intros s. unfold env_of. destruct (eq_dec s t); [reflexivity|]. destruct (inb s _); [|reflexivity]. destruct (eq_dec s v) as [->|]; reflexivity. }
    apply (diff_sound (dsym v) (fun x => env_of u (fun s => if eq_dec s v then x else val s)) (env_of u val) (val v) (rhs y) e').
    - intros s e1 Hs H. unfold dsym in H. inv H. apply in_dep in Hv. unfold env_of.
      assert (Hvt : v <> t) by (intros ->; destruct Hf as (_ & _ & Ht & _); contradiction).
      destruct (eq_dec s v) as [->|Hne].
      + destruct (eq_dec v t) as [->|_]; [contradiction|]. rewrite (proj2 (inb_In _ _) Hv). simpl. apply (is_derive_id (val v)).
      + simpl. destruct (eq_dec s t); [apply der_const|]. destruct (inb s _); apply der_const.
    - intros s _. symmetry. apply Hsame.
    - eapply defined_ext; [|exact Hdef]. intros s _. symmetry. apply Hsame.
    - exact He'.
  Qed.
End Init.
