(** * MinObjCopy: the copy made by pickling. *)
From Coq Require Import Reals Lia.
From Verif Require Import PyBase PyFacts Signature SignatureFacts Expr NumPy Model Objective Minimizer MinObj MinObjSpec MinObjFacts MinObjMain.
Local Open Scope string_scope.
Local Open Scope list_scope.

Section Copy.
  Context {raw : Type} (wrap : list sym -> raw -> res fn) (F : sym -> bool).
  Notation attrs := (attrs raw).
  Notation aval := (aval raw).
  Notation object := (object raw).
  Notation hF := (flag_heap F).
  Notation from_callable := (from_callable wrap).

  Definition copy_state (h : heap) (c : pyclass) : list (string * aval) -> res attrs :=
    fix go d := match d with
                | [] => Ok []
                | (k, v) :: d => if left_out c k then go d else v' <- copy_value wrap h v ;; r <- go d ;; Ok ((k, v') :: r)
                end.
  Definition copy_kwargs (h : heap) : list (string * aval) -> res attrs :=
    fix go d := match d with [] => Ok [] | (k, v) :: d => v' <- copy_value wrap h v ;; r <- go d ;; Ok ((k, v') :: r) end.
  Definition copy_list (h : heap) : list object -> res (list object) :=
    fix go l := match l with [] => Ok [] | o :: l => o' <- copy wrap h o ;; r <- go l ;; Ok (o' :: r) end.
  Lemma copy_unfold h c d : copy wrap h (Obj c d) =
    (state <- copy_state h c d ;;
     match c with ChainedMinimizer => if dmem d "__signature__" then setstate wrap h c state else Raise KeyError | _ => setstate wrap h c state end).
  Proof using. reflexivity. Qed.
  Lemma copy_kw h d : copy_value wrap h (VKwargs d) = (d' <- copy_kwargs h d ;; Ok (VKwargs d')).
  Proof using. reflexivity. Qed.
  Lemma copy_mins h l : copy_value wrap h (VMins l) = (l' <- copy_list h l ;; Ok (VMins l')).
  Proof using. reflexivity. Qed.
  Lemma copy_min h o : copy_value wrap h (VMin o) = (o' <- copy wrap h o ;; Ok (VMin o')).
  Proof using. reflexivity. Qed.

  Lemma copy_state_spec h c (T : attrs) d : NoDup (dkeys d) ->
    (forall k v, In (k, v) d -> left_out c k = false -> exists v', copy_value wrap h v = Ok v' /\ dget T k = Some v') ->
    exists st, copy_state h c d = Ok st /\ NoDup (dkeys st) /\ incl (dkeys st) (dkeys d) /\
      forall k, dget st k = if left_out c k then None else match dget d k with Some _ => dget T k | None => None end.
  Proof using.
    induction d as [|[k v] d IH]; intros Hn H.
    - exists []. repeat split; [constructor|intros ? []|]. intros k. cbn. destruct (left_out c k); reflexivity.
    - inversion Hn as [|? ? Hk Hn']; subst. destruct (IH Hn' (fun k' v' Hin => H k' v' (or_intror Hin))) as (st & E & N & I & G). cbn [copy_state].
      change ((fix go (d : list (string * aval)) : res attrs := match d with [] => Ok [] | (k, v) :: d0 => if left_out c k then go d0 else v' <- copy_value wrap h v;; r <- go d0;; Ok ((k, v') :: r) end) d) with (copy_state h c d).
      destruct (left_out c k) eqn:El.
      + exists st. split; [exact E|]. split; [exact N|]. split; [intros a Ha; right; exact (I a Ha)|]. intros k'. rewrite G. cbn [dget]. destruct (eq_dec k' k) as [->|]; [rewrite El|]; reflexivity.
      + destruct (H k v (or_introl eq_refl) El) as (v' & Hv & HT). rewrite Hv, E. cbn [bind]. eexists. split; [reflexivity|]. split.
        { cbn. constructor; [intros Hin; apply Hk; exact (I _ Hin)|exact N]. }
        split; [intros a [<-|Ha]; [left; reflexivity|right; exact (I a Ha)]|]. intros k'. cbn [dget]. destruct (eq_dec k' k) as [->|Hne]; [rewrite El; symmetry; exact HT|]. apply G.
  Qed.

  (** ** The objects *)
  Notation make2 := (fun c => make_object wrap 2 hF (Concrete c)).
  Inductive well : object -> Prop :=
  | well_simple c d ps o f j s cs jp sp w g : c <> BasinHopping -> NoDup (dkeys d) -> simple_ok wrap F c ps o f j s cs jp sp w ->
      same_map d (written hF c ps o (VObjective f) j s cs jp sp w ++ guess_part g) -> well (Obj (Concrete c) d)
  | well_basin d ps o f loc lo g : NoDup (dkeys d) -> from_callable ps o = Ok (VObjective f) -> local_rule make2 ps f loc lo -> well lo ->
      same_map d (basin_attrs F ps o f loc lo ++ guess_part g) -> well (Obj (Concrete BasinHopping) d)
  | well_chain d ps o f l s g : NoDup (dkeys d) -> from_callable ps o = Ok (VObjective f) -> chain_signature (names_of_chain l) = Ok s -> (forall m, In m l -> well m) ->
      same_map d (chain_attrs F ps o f l s ++ guess_part g) -> well (Obj ChainedMinimizer d).

  Lemma problem_ext c (d d' : attrs) : (forall k, In k ["params"; "_initial_guesses"; "wrapped_constraints"; "wrapped_jacobian"; "wrapped_hessian"; "jacobian"; "hessian"] -> dget d k = dget d' k) ->
    forall h uj uh, @problem_of raw h (Obj c d) uj uh = problem_of h (Obj c d') uj uh.
  Proof using.
    intros H h uj uh. unfold problem_of, params_attr, guesses, handed_attr, derivative_attr, strategy_attr, getattr, params_attr, getattr.
    rewrite !(H "params"), !(H "_initial_guesses"), !(H "wrapped_constraints"), !(H "wrapped_jacobian"), !(H "wrapped_hessian"), !(H "jacobian"), !(H "hessian") by (cbn; tauto). reflexivity.
  Qed.
  Lemma alike_refl o : well o -> alike o o.
  Proof using.
    induction 1 as [c d ps o f j s cs jp sp w g Hc Hn Hs Hd|d ps o f loc lo g Hn Hf Hl Hw IH Hd|d ps o f l s g Hn Hf Hs Hw IH Hd].
    - apply Alike; try reflexivity; cbn [attrs_of]; rewrite Hd.
      + destruct c; try congruence; destruct g; apply AlikeNone.
      + destruct c; destruct g; apply AlikeNone.
    - apply Alike; try reflexivity; cbn [attrs_of]; rewrite Hd.
      + apply AlikeMin. exact IH.
      + destruct g; apply AlikeNone.
    - apply Alike; try reflexivity; cbn [attrs_of]; rewrite Hd.
      + destruct g; apply AlikeNone.
      + apply AlikeMins; [reflexivity|]. intros i a a' Ha Ha'. rewrite Ha in Ha'. injection Ha' as <-. apply IH. exact (nth_error_In _ _ Ha).
  Qed.

  Lemma callable_copies h ps o f : from_callable ps o = Ok f -> copy_value wrap h o = Ok o.
  Proof using. destruct o; cbn; try discriminate; reflexivity. Qed.
  Lemma pair_copies h r ps j jp : derivative_pair wrap r ps j = Ok jp -> copy_value wrap h j = Ok j /\ copy_value wrap h (fst jp) = Ok (fst jp).
  Proof using.
    destruct j; cbn; try discriminate.
    - intros H. injection H as <-. auto.
    - destruct (wrap ps f); cbn; [|discriminate]. intros H. injection H as <-. auto.
    - intros H. injection H as <-. auto.
  Qed.
  Lemma from_map (d T : attrs) k v : same_map d T -> NoDup (dkeys d) -> In (k, v) d -> dget T k = Some v.
  Proof using. intros Hd Hn Hin. rewrite <- Hd. apply In_dget; assumption. Qed.

  Lemma setstate_spec h c st kw : fixes h F -> NoDup (dkeys st) -> dget st "_pickle_kwargs" = Some (VKwargs kw) ->
    setstate wrap h c st = (d <- init_chain wrap make2 hF c (mro c) st [] kw ;; Ok (Obj c d)).
  Proof using.
    intros Hh Hn Hk. rewrite (setstate_flags wrap F h c st Hh). unfold setstate, getattr. fold (dict_of st). rewrite (dict_of_nodup st) by exact Hn. rewrite Hk. reflexivity.
  Qed.

  Lemma copy_simple h c d ps o f j s cs jp sp w g : fixes h F -> c <> BasinHopping -> NoDup (dkeys d) -> simple_ok wrap F c ps o f j s cs jp sp w ->
    same_map d (written hF c ps o (VObjective f) j s cs jp sp w ++ guess_part g) ->
    exists d', copy wrap h (Obj (Concrete c) d) = Ok (Obj (Concrete c) d') /\ NoDup (dkeys d') /\ same_map d' (written hF c ps o (VObjective f) j s cs jp sp w ++ guess_part g).
  Proof using.
    intros Hh Hc Hn Hs Hd. set (T := written hF c ps o (VObjective f) j s cs jp sp w ++ guess_part g).
    assert (Hkw : copy_value wrap h (VKwargs (remembered c ps o j s cs)) = Ok (VKwargs (remembered c ps o j s cs))).
    { destruct Hs as [H1 H2 H3 H4 N1 N2 N3]. rewrite copy_kw.
      assert (Hcs : copy_value wrap h cs = Ok cs) by (destruct (is_constrained c); [destruct cs; cbn in H4; try discriminate; reflexivity|rewrite (N3 eq_refl); reflexivity]).
      pose proof (callable_copies h _ _ _ H1) as Ho. apply (pair_copies h) in H2 as (Hj & _). apply (pair_copies h) in H3 as (Hss & _).
      unfold remembered. destruct (is_constrained c), (is_gradient c), (is_hessian c); cbn [app copy_kwargs]; cbn [copy_value]; rewrite ?Ho, ?Hj, ?Hss, ?Hcs; cbn [bind]; reflexivity. }
    destruct (copy_state_spec h (Concrete c) T d Hn) as (st & E & N & _ & G).
    { intros k v Hin Hl. pose proof (from_map d T k v Hd Hn Hin) as HT. exists v. split; [|exact HT]. destruct Hs as [H1 H2 H3 H4 N1 N2 N3]. unfold T in HT.
      rewrite dget_app in HT. apply (pair_copies h) in H2 as (_ & Hj). apply (pair_copies h) in H3 as (_ & Hss).
      assert (Hcv : copy_value wrap h (if is_constrained c then cons_value cs else VCons []) = Ok (if is_constrained c then cons_value cs else VCons [])).
      { destruct (is_constrained c); [|reflexivity]. destruct (cons_value cs); try discriminate. reflexivity. }
      destruct (dget (written hF c ps o (VObjective f) j s cs jp sp w) k) as [v0|] eqn:Ew.
      - injection HT as ->. apply dget_In in Ew. unfold written in Ew. rewrite !in_app_iff in Ew. destruct Ew as [Ew|[Ew|Ew]].
        + repeat (destruct Ew as [Ew|Ew]; [injection Ew as <- <-; try reflexivity; try assumption; try discriminate|]). destruct Ew.
        + destruct (is_hessian c); [|destruct Ew]. destruct Ew as [Ew|[Ew|[]]]; injection Ew as <- <-; [exact Hss|discriminate].
        + destruct (is_constrained c); [|destruct Ew]. destruct Ew as [Ew|[]]; injection Ew as <- <-. discriminate.
      - destruct g; [|discriminate]. cbn in HT. destruct (eq_dec k "_initial_guesses"); [|discriminate]. injection HT as <-. reflexivity. }
    assert (G' : forall k, dget st k = if left_out (Concrete c) k then None else dget T k).
    { intros k. rewrite G. rewrite (Hd k). fold T. destruct (left_out (Concrete c) k), (dget T k); reflexivity. }
    rewrite copy_unfold, E. cbn [bind]. rewrite (setstate_spec h (Concrete c) st (remembered c ps o j s cs) Hh N).
    2:{ rewrite G'. unfold T. rewrite dget_app. reflexivity. }
    pose proof (init_closed wrap make2 hF c st [] (remembered c ps o j s cs) Hc) as He. rewrite (closed_remembered wrap F c st ps o f j s cs jp sp w Hs) in He.
    destruct (init_chain wrap make2 hF (Concrete c) (mro (Concrete c)) st [] (remembered c ps o j s cs)) as [d'|] eqn:Ei; [|destruct He]. cbn [eqv] in He. cbn [bind]. exists d'. split; [reflexivity|].
    split; [exact (init_nodup wrap _ _ _ _ _ _ _ _ N Ei)|]. intros k. rewrite (He k), dget_dupdate_nodup by apply written_nodup. rewrite G'. unfold T. rewrite dget_app.
    destruct (dget (written hF c ps o (VObjective f) j s cs jp sp w) k) eqn:Ew; [reflexivity|].
    destruct g; [|destruct (left_out _ _); reflexivity]. cbn [guess_part dget]. destruct (eq_dec k "_initial_guesses") as [->|]; [reflexivity|destruct (left_out _ _); reflexivity].
  Qed.
  Lemma from_same (d d' T : attrs) : same_map d T -> same_map d' T -> forall k, dget d k = dget d' k.
  Proof using. intros H1 H2 k. rewrite (H1 k), (H2 k). reflexivity. Qed.

  Lemma well_copy o : well o -> forall h, fixes h F -> exists o', copy wrap h o = Ok o' /\ well o' /\ alike o o'.
  Proof using.
    induction 1 as [c d ps o f j s cs jp sp w g Hc Hn Hs Hd|d ps o f loc lo g Hn Hf Hl Hw IH Hd|d ps o f l s g Hn Hf Hs Hw IH Hd]; intros h Hh.
    - destruct (copy_simple h c d ps o f j s cs jp sp w g Hh Hc Hn Hs Hd) as (d' & E & N & Hd'). exists (Obj (Concrete c) d'). split; [exact E|]. split; [eapply well_simple; eassumption|].
      pose proof (from_same d d' _ Hd Hd') as Hsame.
      apply Alike; cbn [attrs_of class_of]; try (apply Hsame); try reflexivity.
      + apply problem_ext. intros k _. apply Hsame.
      + rewrite !Hd, !Hd'. destruct c; try congruence; destruct g; apply AlikeNone.
      + rewrite !Hd, !Hd'. destruct c; destruct g; apply AlikeNone.
    - destruct (IH h Hh) as (lo' & Elo & Wlo & Alo).
      set (loc' := match loc with VMin _ => VMin lo' | v => v end).
      assert (Hloc : copy_value wrap h loc = Ok loc').
      { destruct Hl as [(-> & _)|(c & -> & _)]; [|reflexivity]. rewrite copy_min, Elo. reflexivity. }
      set (T := basin_attrs F ps o f loc' lo' ++ guess_part g).
      destruct (copy_state_spec h (Concrete BasinHopping) T d Hn) as (st & E & N & _ & G).
      { intros k v Hin Hlk. pose proof (from_map d _ k v Hd Hn Hin) as HT. rewrite dget_app in HT. unfold T. rewrite dget_app. unfold basin_attrs, base_attrs in HT |- *. cbn [app dget] in HT |- *.
        repeat match type of HT with context [eq_dec ?x ?s] => is_var x; destruct (eq_dec x s) as [->|?]; [injection HT as <-; eexists; split; [|reflexivity]; try reflexivity; try discriminate|] end.
        - rewrite copy_kw. cbn [app copy_kwargs copy_value]. rewrite (callable_copies h _ _ _ Hf), Hloc. reflexivity.
        - rewrite copy_min, Elo. reflexivity.
        - destruct g; [|discriminate]. cbn [guess_part dget] in HT |- *. destruct (eq_dec k "_initial_guesses"); [|discriminate]. injection HT as <-. eexists. split; reflexivity. }
      assert (G' : forall k, dget st k = if left_out (Concrete BasinHopping) k then None else dget T k).
      { intros k. rewrite G. rewrite (Hd k). unfold T. rewrite !dget_app. unfold basin_attrs, base_attrs. cbn [app dget]. destruct (left_out _ k); [reflexivity|].
        repeat match goal with |- context [eq_dec ?x ?s] => is_var x; destruct (eq_dec x s) as [->|?]; [reflexivity|] end. destruct (dget (guess_part g) k); reflexivity. }
      assert (Hl2 : exists lo2, local_rule make2 ps f loc' lo2 /\ well lo2 /\ alike lo lo2).
      { destruct Hl as [(-> & Hsc)|(c & -> & Hm)].
        - exists lo'. split; [left; split; [reflexivity|]|auto]. inversion Alo as [? ? Hcl]; subst. rewrite <- Hcl. exact Hsc.
        - exists lo. split; [right; exists c; auto|]. split; [exact Hw|apply alike_refl; exact Hw]. }
      destruct Hl2 as (lo2 & Hr2 & Hw2 & Ha2).
      destruct (basin_build wrap F make2 st ps o f loc' lo2 Hf Hr2) as (d' & Ei & He).
      assert (Hd' : same_map d' (basin_attrs F ps o f loc' lo2 ++ guess_part g)).
      { intros k. rewrite (He k), dget_dupdate_nodup by apply basin_attrs_nodup. rewrite G'. unfold T. rewrite !dget_app. unfold basin_attrs, base_attrs. cbn [app dget].
        repeat match goal with |- context [eq_dec ?x ?s] => is_var x; destruct (eq_dec x s) as [->|?]; [reflexivity|] end.
        destruct g; [|destruct (left_out _ _); reflexivity]. cbn [guess_part dget]. destruct (eq_dec k "_initial_guesses") as [->|]; [reflexivity|destruct (left_out _ _); reflexivity]. }
      rewrite copy_unfold, E. cbn [bind]. rewrite (setstate_spec h (Concrete BasinHopping) st [("parameters", VParams ps); ("objective", o); ("local_minimizer", loc')] Hh N).
      2:{ rewrite G'. unfold T. rewrite dget_app. reflexivity. }
      rewrite Ei. cbn [bind]. exists (Obj (Concrete BasinHopping) d'). split; [reflexivity|]. split.
      { eapply well_basin; [exact (init_nodup wrap _ _ _ _ _ _ _ _ N Ei)|exact Hf|exact Hr2|exact Hw2|exact Hd']. }
      apply Alike; [reflexivity| | | | | | |]; cbn [attrs_of class_of]; try (rewrite Hd, Hd'; destruct g; reflexivity).
      + apply problem_ext. intros k Hk. rewrite Hd, Hd'. repeat (destruct Hk as [<-|Hk]; [reflexivity|]). destruct Hk.
      + rewrite Hd, Hd'. apply AlikeMin. exact Ha2.
      + rewrite Hd, Hd'. destruct g; apply AlikeNone.
    - assert (Hl : exists l', copy_list h l = Ok l' /\ (forall m, In m l' -> well m) /\ List.length l = List.length l' /\ names_of_chain l' = names_of_chain l /\
         forall i a a', nth_error l i = Some a -> nth_error l' i = Some a' -> alike a a').
      { clear Hd Hs Hw. induction l as [|m l IHl]; [exists []; split; [reflexivity|]; split; [intros ? []|]; split; [reflexivity|]; split; [reflexivity|]; intros [|i] ? ? HX; discriminate|].
        destruct (IHl (fun m' Hm' => IH m' (or_intror Hm'))) as (l' & E & W & L & Nm & A). destruct (IH m (or_introl eq_refl) h Hh) as (m' & Em & Wm & Am).
        exists (m' :: l'). cbn [copy_list]. change ((fix go (l : list object) : res (list object) := match l with [] => Ok [] | o :: l0 => o' <- copy wrap h o;; r <- go l0;; Ok (o' :: r) end) l) with (copy_list h l).
        rewrite Em, E. cbn [bind]. split; [reflexivity|]. split; [intros a [<-|Ha]; auto|]. split; [cbn; congruence|]. split.
        - cbn. unfold names_of_chain in Nm. rewrite Nm. inversion Am as [? ? Hcl]; subst. rewrite Hcl. reflexivity.
        - intros [|i] a a' Ha Ha'; cbn in Ha, Ha'; [injection Ha as <-; injection Ha' as <-; exact Am|exact (A i a a' Ha Ha')]. }
      destruct Hl as (l' & El & Wl & Ll & Nl & Al).
      set (T := chain_attrs F ps o f l' s ++ guess_part g).
      destruct (copy_state_spec h ChainedMinimizer T d Hn) as (st & E & N & _ & G).
      { intros k v Hin Hlk. pose proof (from_map d _ k v Hd Hn Hin) as HT. rewrite dget_app in HT. unfold T. rewrite dget_app. unfold chain_attrs, base_attrs in HT |- *. cbn [app dget] in HT |- *.
        repeat match type of HT with context [eq_dec ?x ?s] => is_var x; destruct (eq_dec x s) as [->|?]; [injection HT as <-; eexists; split; [|reflexivity]; try reflexivity; try discriminate|] end.
        - rewrite copy_kw. cbn [app copy_kwargs]. rewrite copy_mins, El. cbn [copy_value]. rewrite (callable_copies h _ _ _ Hf). reflexivity.
        - rewrite copy_mins, El. reflexivity.
        - destruct g; [|discriminate]. cbn [guess_part dget] in HT |- *. destruct (eq_dec k "_initial_guesses"); [|discriminate]. injection HT as <-. eexists. split; reflexivity. }
      assert (G' : forall k, dget st k = if left_out ChainedMinimizer k then None else dget T k).
      { intros k. rewrite G. rewrite (Hd k). unfold T. rewrite !dget_app. unfold chain_attrs, base_attrs. cbn [app dget]. destruct (left_out _ k); [reflexivity|].
        repeat match goal with |- context [eq_dec ?x ?s] => is_var x; destruct (eq_dec x s) as [->|?]; [reflexivity|] end. destruct (dget (guess_part g) k); reflexivity. }
      rewrite <- Nl in Hs. destruct (chain_build wrap F make2 st ps o f l' s Hf Hs) as (d' & Ei & He).
      assert (Hd' : same_map d' (chain_attrs F ps o f l' s ++ guess_part g)).
      { intros k. rewrite (He k), dget_dupdate_nodup by apply chain_attrs_nodup. rewrite G'. unfold T. rewrite !dget_app. unfold chain_attrs, base_attrs. cbn [app dget].
        repeat match goal with |- context [eq_dec ?x ?s] => is_var x; destruct (eq_dec x s) as [->|?]; [reflexivity|] end.
        destruct g; [|destruct (left_out _ _); reflexivity]. cbn [guess_part dget]. destruct (eq_dec k "_initial_guesses") as [->|]; [reflexivity|destruct (left_out _ _); reflexivity]. }
      assert (Hsig : dmem d "__signature__" = true) by (apply dmem_keys, dget_keys; rewrite Hd; discriminate).
      rewrite copy_unfold, E. cbn [bind]. rewrite Hsig. rewrite (setstate_spec h ChainedMinimizer st [("parameters", VParams ps); ("objective", o); ("minimizers", VMins l')] Hh N).
      2:{ rewrite G'. unfold T. rewrite dget_app. reflexivity. }
      rewrite Ei. cbn [bind]. exists (Obj ChainedMinimizer d'). split; [reflexivity|]. split.
      { eapply well_chain; [exact (init_nodup wrap _ _ _ _ _ _ _ _ N Ei)|exact Hf|exact Hs|exact Wl|exact Hd']. }
      apply Alike; [reflexivity| | | | | | |]; cbn [attrs_of class_of]; try (rewrite Hd, Hd'; destruct g; reflexivity).
      + reflexivity.
      + rewrite Hd, Hd'. destruct g; apply AlikeNone.
      + rewrite Hd, Hd'. apply AlikeMins; [exact Ll|exact Al].
  Qed.
End Copy.
