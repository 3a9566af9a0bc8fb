(** * ExprCallFacts: facts about calling expressions. *)
From Verif Require Import PyBase PyFacts Toposort Signature SignatureFacts Expr Model ModelSpec ModelFacts CallFacts ExprCall.
Local Open Scope string_scope.
Local Open Scope list_scope.

(** The Variables (and derivatives) an expression is called with, and its Parameters. *)
Definition arguments_of (e : expr) (vars params : list sym) : Prop :=
  NoDup vars /\ NoDup params /\ alphabetical sname vars /\ alphabetical sname params /\
  (forall s, In s vars <-> mentions e s /\ is_par s = false) /\
  (forall s, In s params <-> mentions e s /\ is_par s = true).

Lemma nth_ext_error {B} (l m : list B) : (forall i, nth_error l i = nth_error m i) -> l = m.
Proof.
  revert m. induction l as [|x l IH]; intros [|y m] H; [reflexivity|specialize (H 0%nat); discriminate|specialize (H 0%nat); discriminate|].
  pose proof (H 0%nat) as H0. injection H0 as ->. f_equal. apply IH. intros i. exact (H (S i)).
Qed.
Lemma nth_error_combine {B C} (l : list B) : forall (m : list C) i, nth_error (combine l m) i = match nth_error l i, nth_error m i with Some a, Some b => Some (a, b) | _, _ => None end.
Proof.
  induction l as [|x l IH]; intros [|y m] [|i]; simpl; try reflexivity; [destruct (nth_error l i); reflexivity|]. apply IH.
Qed.
Lemma nth_error_skipn {B} k : forall (l : list B) i, nth_error (skipn k l) i = nth_error l (k + i).
Proof. induction k as [|k IH]; intros [|x l] i; simpl; try reflexivity; [destruct i; reflexivity|]. apply IH. Qed.

Section Facts.
  Context {V : Type} (A : alg V).

  Lemma seperate_spec ord e : set_order ord ->
    let '(vars, params) := seperate_symbols ord e in arguments_of e vars params.
  Proof.
    intros Ho. destruct (seperate_symbols ord e) as [vars params] eqn:E.
    assert (Hm : forall s, In s (vars ++ params) <-> mentions e s).
    { intros s. rewrite <- (in_expr_deps ord e s Ho). unfold expr_deps. rewrite E. reflexivity. }
    assert (Hnd : NoDup (vars ++ params)).
    { pose proof (NoDup_expr_deps ord e Ho) as H. unfold expr_deps in H. rewrite E in H. exact H. }
    assert (Hv : forall s, In s vars -> is_par s = false).
    { intros s Hs. unfold seperate_symbols in E. injection E as E1 E2. subst vars. rewrite in_sort_by in Hs. apply in_app_iff in Hs as [Hs|Hs].
      - apply filter_In in Hs as [_ Hs]. destruct (is_par s); [discriminate|reflexivity].
      - rewrite in_ord in Hs by exact Ho. apply in_deriv_atoms in Hs as [_ Hs]. destruct s; try discriminate; reflexivity. }
    assert (Hp : forall s, In s params -> is_par s = true).
    { intros s Hs. unfold seperate_symbols in E. injection E as E1 E2. subst params. rewrite in_sort_by in Hs. apply filter_In in Hs as [_ Hs]. exact Hs. }
    apply NoDup_app_split in Hnd as (Hn1 & Hn2 & _).
    split; [exact Hn1|]. split; [exact Hn2|].
    split; [unfold seperate_symbols in E; injection E as <- _; apply sort_by_sorted|].
    split; [unfold seperate_symbols in E; injection E as _ <-; apply sort_by_sorted|].
    split; intros s; rewrite <- Hm, in_app_iff; split.
    - intros H; split; [auto|apply Hv; exact H].
    - intros [[H|H] Hx]; [exact H|]. rewrite (Hp s H) in Hx. discriminate.
    - intros H; split; [auto|apply Hp; exact H].
    - intros [[H|H] Hx]; [|exact H]. rewrite (Hv s H) in Hx. discriminate.
  Qed.

  Lemma key_inj_of (l : list sym) : NoDup (map sname l) -> forall s t, In s l -> In t l -> sname s = sname t -> s = t.
  Proof.
    induction l as [|x l IH]; simpl; intros Hn s t Hs Ht He; [destruct Hs|]. apply NoDup_cons_iff in Hn as [H1 H2].
    destruct Hs as [<-|Hs], Ht as [<-|Ht]; auto.
    - exfalso. apply H1. rewrite He. apply in_map. exact Ht.
    - exfalso. apply H1. rewrite <- He. apply in_map. exact Hs.
  Qed.

  (** The argument order is determined by the description. *)
  Lemma arguments_unique e v1 p1 v2 p2 : arguments_of e v1 p1 -> arguments_of e v2 p2 -> NoDup (map sname (v1 ++ p1)) -> v1 = v2 /\ p1 = p2.
  Proof.
    intros (A1 & A2 & A3 & A4 & A5 & A6) (B1 & B2 & B3 & B4 & B5 & B6) Hn.
    rewrite map_app in Hn. apply NoDup_app_split in Hn as (N1 & N2 & _). split; apply (alphabetical_unique sname); auto.
    - intros s t Hs Ht. apply key_inj_of with (l := v1); auto.
    - apply NoDup_Permutation; auto. intros s. rewrite A5, B5. reflexivity.
    - intros s t Hs Ht. apply key_inj_of with (l := p1); auto.
    - apply NoDup_Permutation; auto. intros s. rewrite A6, B6. reflexivity.
  Qed.

  Lemma NoDup_keys_filter (f : string * V -> bool) (kw : dict string V) : NoDup (dkeys kw) -> NoDup (dkeys (filter f kw)).
  Proof.
    induction kw as [|[k v] kw IH]; simpl; intros H; [exact H|]. apply NoDup_cons_iff in H as [H1 H2].
    destruct (f (k, v)); simpl; [|auto]. constructor; [|auto]. intros Hin. apply H1. apply in_map_iff in Hin as ([k' v'] & E & Hin).
    apply filter_In in Hin as [Hin _]. apply in_map_iff. exists (k', v'). auto.
  Qed.

  Lemma mentions_occ e s : In s (occs e) -> mentions e s.
  Proof. intros H. left. exact H. Qed.

  Lemma in_all e vars params s : arguments_of e vars params -> mentions e s -> In s (vars ++ params).
  Proof. intros (_ & _ & _ & _ & H1 & H2) Hm. apply in_or_app. destruct (is_par s) eqn:E; [right; apply H2|left; apply H1]; auto. Qed.

  Lemma combine_named (inp : sym -> V) (l : list sym) : combine (map sname l) (map inp l) = named inp l.
  Proof. unfold named. induction l as [|x l IH]; simpl; congruence. Qed.
  Lemma dkeys_named (inp : sym -> V) (l : list sym) : dkeys (named inp l) = map sname l.
  Proof. unfold dkeys, named. rewrite map_map. reflexivity. Qed.
  Lemma dvals_named (inp : sym -> V) (l : list sym) : dvals (named inp l) = map inp l.
  Proof. unfold dvals, named. rewrite map_map. reflexivity. Qed.

  Lemma sympy_to_py_named e (l : list sym) inp : NoDup (map sname l) -> (forall s, In s (occs e) -> In s l) ->
    sympy_to_py A e l (named inp l) = Ok (eval A inp e).
  Proof.
    intros Hn Ho. unfold sympy_to_py.
    assert (E : forallb (fun n => dmem (named inp l) n) (map sname l) && forallb (fun n => inb n (map sname l)) (dkeys (named inp l)) = true).
    { apply andb_true_iff. split; apply forallb_forall.
      - intros n Hin. apply in_map_iff in Hin as (s & <- & Hs). unfold dmem. rewrite (dget_named inp l s Hn Hs). reflexivity.
      - intros n Hin. apply inb_In. rewrite dkeys_named in Hin. exact Hin. }
    rewrite E. apply eval_kw_ok. intros s Hs. apply dget_named; auto.
  Qed.

  Theorem expr_call_value ord e vars params inp args kw : set_order ord -> arguments_of e vars params ->
    NoDup (map sname (vars ++ params)) ->
    supplies (named inp (vars ++ params)) args (filter (fun nv => inb (fst nv) (map sname (vars ++ params))) kw) ->
    expr_call A ord e args kw = Ok (eval A inp e).
  Proof.
    intros Ho Ha Hn Hs. unfold expr_call. pose proof (seperate_spec ord e Ho) as Hsep.
    destruct (seperate_symbols ord e) as [v2 p2]. destruct (arguments_unique _ _ _ _ _ Ha Hsep Hn) as [<- <-].
    assert (Hb : nodupb (map sname (vars ++ params)) = true) by (apply nodupb_iff; exact Hn). rewrite Hb. cbn [negb].
    pose proof (make_signature_intro vars params Hn) as Hms. unfold make_signature in Hms. rewrite map_map in *. rewrite Hms. cbn [bind].
    assert (Hkn : NoDup (dkeys (named inp (vars ++ params)))) by (rewrite dkeys_named; exact Hn).
    rewrite (proj2 (sig_bind_supplies (map sname (vars ++ params)) args _ (named inp (vars ++ params)) Hn (supplies_nodup _ _ _ Hkn Hs))); [|split; [apply dkeys_named|exact Hs]].
    cbn [bind]. apply sympy_to_py_named; [exact Hn|]. intros s Hs'. apply (in_all e); [exact Ha|]. apply mentions_occ. exact Hs'.
  Qed.

  (** A call that does not supply every argument exactly once is a TypeError. *)
  Theorem expr_call_rejects ord e vars params args kw : set_order ord -> arguments_of e vars params ->
    NoDup (map sname (vars ++ params)) -> NoDup (dkeys kw) ->
    (forall b, dkeys b = map sname (vars ++ params) -> ~ supplies b args (filter (fun nv => inb (fst nv) (map sname (vars ++ params))) kw)) ->
    expr_call A ord e args kw = Raise TypeError.
  Proof.
    intros Ho Ha Hn Hk Hs. unfold expr_call. pose proof (seperate_spec ord e Ho) as Hsep.
    destruct (seperate_symbols ord e) as [v2 p2]. destruct (arguments_unique _ _ _ _ _ Ha Hsep Hn) as [<- <-].
    assert (Hb : nodupb (map sname (vars ++ params)) = true) by (apply nodupb_iff; exact Hn). rewrite Hb. cbn [negb].
    pose proof (make_signature_intro vars params Hn) as Hms. unfold make_signature in Hms. rewrite map_map in *. rewrite Hms. cbn [bind].
    match goal with |- context [sig_bind _ args ?f] => destruct (sig_bind_total (map sname (vars ++ params)) args f) as [[b E]|E] end.
    - exfalso. apply sig_bind_supplies in E as [E1 E2]; [|exact Hn|apply (NoDup_keys_filter (fun nv => inb (fst nv) (map sname (vars ++ params)))); exact Hk]. exact (Hs b E1 E2).
    - rewrite E. reflexivity.
  Qed.

  (** Two symbols of the same name. *)
  Theorem expr_call_same_names ord e vars params args kw : set_order ord -> arguments_of e vars params ->
    ~ NoDup (map sname (vars ++ params)) -> expr_call A ord e args kw = Raise SyntaxError.
  Proof.
    intros Ho Ha Hn. unfold expr_call. pose proof (seperate_spec ord e Ho) as Hsep.
    destruct (seperate_symbols ord e) as [v2 p2].
    destruct (nodupb (map sname (v2 ++ p2))) eqn:E; [|reflexivity]. exfalso. apply nodupb_iff in E.
    destruct (arguments_unique _ _ _ _ _ Hsep Ha E) as [-> ->]. contradiction.
  Qed.

  (** ** The function sympy_to_py returns *)
  Lemma lambdified_ok e args dn inp pos kw : List.length dn = List.length args -> NoDup dn -> NoDup (map sname args) ->
    (forall s, In s (occs e) -> In s args) ->
    supplies (combine dn (map inp args)) pos kw -> lambdified A e args dn pos kw = Ok (eval A inp e).
  Proof.
    intros Hl Hd Hn Ho Hs. unfold lambdified. change (map pos_param dn) with (required dn).
    assert (Hk : dkeys (combine dn (map inp args)) = dn) by (apply dkeys_combine; rewrite map_length; lia).
    assert (Hkn : NoDup (dkeys (combine dn (map inp args)))) by (rewrite Hk; exact Hd).
    rewrite (proj2 (sig_bind_supplies dn pos kw (combine dn (map inp args)) Hd (supplies_nodup _ _ _ Hkn Hs))); [|split; assumption].
    cbn [bind]. assert (Hv : dvals (combine dn (map inp args)) = map inp args).
    { apply map_snd_combine. rewrite map_length. exact Hl. }
    rewrite Hv, combine_named. apply eval_kw_ok. intros s Hs'. apply dget_named; auto.
  Qed.

  Lemma combine_eq (l m : list string) : List.length l = List.length m -> forallb (fun p => eqb (fst p) (snd p)) (combine l m) = true -> l = m.
  Proof.
    revert m. induction l as [|x l IH]; intros [|y m] Hl H; simpl in *; try discriminate; [reflexivity|].
    apply andb_prop in H as [H1 H2]. apply (proj1 (eqb_true _ _)) in H1. simpl in H1. f_equal; [exact H1|]. apply IH; [lia|exact H2].
  Qed.

  Lemma map_firstn_skipn_conv (l : list sym) (dn : list string) (inp : sym -> V) k :
    List.length dn = List.length l -> skipn k (combine dn (map inp l)) = combine (skipn k dn) (map inp (skipn k l)).
  Proof.
    revert dn k. induction l as [|x l IH]; intros [|d dn] [|k] H; simpl in *; try discriminate; try reflexivity.
    apply IH. lia.
  Qed.

  Theorem pyfun_ok e args dn inp pos kw : List.length dn = List.length args -> NoDup dn -> NoDup (map sname args) ->
    (forall s, In s (occs e) -> In s args) ->
    f_names (sympy_to_pyfun A e args dn) = map sname args /\
    (supplies (named inp args) pos kw -> f_call (sympy_to_pyfun A e args dn) pos kw = Ok (eval A inp e)).
  Proof.
    intros Hl Hd Hn Ho. unfold sympy_to_pyfun.
    destruct (forallb (fun p => eqb (fst p) (snd p)) (combine (map sname args) dn)) eqn:E.
    - apply combine_eq in E; [|rewrite map_length; lia]. subst dn. simpl. split; [reflexivity|]. intros Hs.
      apply lambdified_ok; auto. rewrite combine_named. exact Hs.
    - assert (Hl' : List.length (map sname args) = List.length dn) by (rewrite map_length; lia).
      assert (Hc : dict_of (combine (map sname args) dn) = combine (map sname args) dn).
      { apply dict_of_nodup. change (NoDup (dkeys (combine (map sname args) dn))). rewrite dkeys_combine by lia. exact Hn. }
      cbn [f_names f_call]. rewrite Hc. split; [apply dkeys_combine; lia|]. intros Hs.
      assert (Hget : forall s, In s args -> exists i, nth_error args i = Some s /\ exists d, nth_error dn i = Some d /\ dget (combine (map sname args) dn) (sname s) = Some d).
      { clear - Hl Hn. revert dn Hl. induction args as [|x l IH]; intros [|d dn] Hl s Hs; simpl in *; try discriminate; try contradiction.
        apply NoDup_cons_iff in Hn as [N1 N2]. destruct Hs as [<-|Hs].
        - exists 0%nat. split; [reflexivity|]. exists d. split; [reflexivity|]. destruct (eq_dec (sname x) (sname x)) as [_|H]; [reflexivity|contradiction H; reflexivity].
        - destruct (IH N2 dn ltac:(lia) s Hs) as (i & H1 & d' & H2 & H3). exists (S i). split; [exact H1|]. exists d'. split; [exact H2|].
          destruct (eq_dec (sname s) (sname x)) as [H|_]; [|exact H3]. exfalso. apply N1. rewrite <- H. apply in_map. exact Hs. }
      (* the converted keywords *)
      set (g := fun nv : string * V => match dget (combine (map sname args) dn) (fst nv) with Some d => (d, snd nv) | None => nv end).
      assert (Hkeys : forall n v, In (n, v) kw -> exists s, In s args /\ n = sname s).
      { intros n v Hin. destruct Hs as (k & _ & Hp). apply (Permutation_in _ Hp) in Hin.
        assert (Hin' : In (n, v) (named inp args)) by (rewrite <- (firstn_skipn k (named inp args)); apply in_or_app; right; exact Hin).
        apply in_map_iff in Hin' as (s & E1 & Hs'). exists s. split; [exact Hs'|]. apply (f_equal fst) in E1. symmetry. exact E1. }
      assert (Hconv : mapM (fun nv => k <- dlook (combine (map sname args) dn) (fst nv) ;; Ok (k, snd nv)) kw = Ok (map g kw)).
      { clear Hs E Hc. induction kw as [|[n v] kw IH]; simpl; [reflexivity|].
        destruct (Hkeys n v (or_introl eq_refl)) as (s & Hs & ->). destruct (Hget s Hs) as (i & _ & d & _ & Hg).
        unfold dlook at 1. rewrite Hg. cbn [of_opt bind]. rewrite IH by (intros n' v' Hin; apply (Hkeys n' v'); right; exact Hin).
        cbn [bind]. unfold g at 2. cbn [fst snd]. rewrite Hg. reflexivity. }
      rewrite Hconv. cbn [bind].
      assert (Hgn : forall k, map g (skipn k (named inp args)) = skipn k (combine dn (map inp args))).
      { intros k. rewrite (map_firstn_skipn_conv args dn inp k Hl).
        assert (Hg0 : forall i s, nth_error args i = Some s -> exists d, nth_error dn i = Some d /\ g (sname s, inp s) = (d, inp s)).
        { intros i s Hi. destruct (Hget s (nth_error_In _ _ Hi)) as (j & H1 & d & H2 & H3).
          assert (i = j) as ->.
          { apply (proj1 (NoDup_nth_error (map sname args)) Hn); [rewrite map_length; apply nth_error_Some; congruence|].
            rewrite !nth_error_map, Hi, H1. reflexivity. }
          exists d. split; [exact H2|]. unfold g. simpl. rewrite H3. reflexivity. }
        clear - Hg0 Hl. unfold named. rewrite skipn_map, map_map.
        apply nth_ext_error. intros i. rewrite nth_error_map, nth_error_combine, nth_error_map.
        rewrite !nth_error_skipn, ?nth_error_map.
        destruct (nth_error args (k + i)) as [s|] eqn:Es.
        - destruct (Hg0 _ _ Es) as (d & H1 & H2). rewrite H1. simpl. rewrite H2. reflexivity.
        - destruct (nth_error dn (k + i)); reflexivity. }
      assert (Hsup : supplies (combine dn (map inp args)) pos (map g kw)).
      { destruct Hs as (k & Hp1 & Hp2). exists k. split.
        - rewrite Hp1. rewrite firstn_combine'. rewrite map_snd_combine by (rewrite !firstn_length, map_length; lia).
          rewrite firstn_map. unfold named. rewrite firstn_map, map_map. reflexivity.
        - rewrite <- (Hgn k). apply Permutation_map. exact Hp2. }
      assert (Hdd : dict_of (map g kw) = map g kw).
      { apply dict_of_nodup. change (NoDup (dkeys (map g kw))). apply (supplies_nodup (combine dn (map inp args)) pos); [|exact Hsup].
        rewrite dkeys_combine by (rewrite map_length; lia). exact Hd. }
      rewrite Hdd. apply lambdified_ok; auto.
  Qed.
End Facts.
