(** * MinObjThm: every minimizer a program can hold. *)
From Coq Require Import Reals Lia.
From Verif Require Import PyBase PyFacts Signature SignatureFacts Expr NumPy Model Objective Minimizer MinSpec MinLemmas MinObj MinObjSpec MinObjFacts MinObjMain MinObjCopy.
Local Open Scope string_scope.
Local Open Scope list_scope.

Section Thm.
  Context {raw : Type} (wrap : list sym -> raw -> res fn) (F : sym -> bool).
  Notation attrs := (attrs raw).
  Notation aval := (aval raw).
  Notation object := (object raw).
  Notation hF := (flag_heap F).
  Notation well := (well wrap F).

  Lemma dget_empty_update (W : attrs) : NoDup (dkeys W) -> forall k, dget (dupdate [] W) k = dget (W ++ guess_part None) k.
  Proof using. intros Hn k. rewrite dget_dupdate_nodup by exact Hn. cbn [guess_part]. rewrite app_nil_r. destruct (dget W k); reflexivity. Qed.

  Lemma well_make n : (n <= 3)%nat -> forall c args kw o, (exists cls, c = Concrete cls) \/ c = ChainedMinimizer ->
    (forall k m, dget kw k = Some (VMin m) -> well m) -> (forall k l m, dget kw k = Some (VMins l) -> In m l -> well m) ->
    make_object wrap n hF c args kw = Ok o -> well o.
  Proof using.
    induction n as [|n IH]; intros Hn c args kw o Hc Hm Hms; [discriminate|]. cbn [make_object].
    destruct (init_chain wrap (fun c => make_object wrap n hF (Concrete c)) hF c (mro c) [] args kw) as [d|] eqn:Ei; [|discriminate]. cbn [bind]. intros H. injection H as <-.
    assert (Hnd : NoDup (dkeys d)) by (refine (init_nodup wrap _ _ _ _ [] args kw d _ Ei); constructor).
    destruct Hc as [(cls & ->)| ->].
    - destruct (eq_dec cls BasinHopping) as [->|Hne].
      + destruct (basin_inv wrap F _ _ _ _ _ Ei) as (b & ov & ps & f & lo & _ & _ & _ & Hf & Hl & Hd).
        eapply (well_basin wrap F d ps ov f _ lo None Hnd Hf); [| |intros k; rewrite (Hd k); apply dget_empty_update, basin_attrs_nodup].
        * destruct Hl as [Hl|(c & Hc & Hl)]; [left; exact Hl|right; exists c; split; [exact Hc|]]. apply (make_more wrap n 2 hF); [lia|exact Hl].
        * destruct Hl as [(Hl & _)|(c & Hc & Hl)].
          -- unfold local_option in Hl. destruct (dget kw "local_minimizer") as [v|] eqn:Ev; [|discriminate]. subst v. exact (Hm _ _ Ev).
          -- apply (IH ltac:(lia) (Concrete c) [VObjective f; VParams ps] [] lo); [left; exists c; reflexivity|discriminate|discriminate|exact Hl].
      + pose proof (init_closed wrap (fun c => make_object wrap n hF (Concrete c)) hF cls [] args kw Hne) as He. rewrite Ei in He.
        destruct (closed wrap hF cls [] args kw) as [d0|] eqn:Ec; [|destruct He]. cbn [eqv] in He. apply closed_inv in Ec as (b & ov & ps & f & jp & sp & w & _ & _ & _ & Hs & ->).
        eapply (well_simple wrap F cls d ps ov f _ _ _ jp sp w None Hne Hnd Hs). intros k. rewrite (He k). apply dget_empty_update, written_nodup.
    - destruct (chain_inv wrap F _ _ _ _ _ Ei) as (b & ov & ps & f & l & s & _ & _ & _ & Hf & Hl & Hs & Hd).
      eapply (well_chain wrap F d ps ov f l s None Hnd Hf Hs); [exact (fun m Hin => Hms _ _ m Hl Hin)|]. intros k. rewrite (Hd k). apply dget_empty_update, chain_attrs_nodup.
  Qed.
  Lemma guess_map d (W : attrs) g g0 : dget W "_initial_guesses" = None -> same_map d (W ++ guess_part g0) -> same_map (dset d "_initial_guesses" (VVector g)) (W ++ guess_part (Some g)).
  Proof using.
    intros HW Hd k. rewrite dget_dset, dget_app. cbn [guess_part dget]. destruct (eq_dec k "_initial_guesses") as [->|Hk]; [rewrite HW; reflexivity|].
    rewrite (Hd k), dget_app. destruct (dget W k); [reflexivity|]. destruct g0; cbn [guess_part dget]; [destruct (eq_dec k "_initial_guesses"); [contradiction|reflexivity]|reflexivity].
  Qed.
  Lemma well_guess o g : well o -> well (set_guesses o g).
  Proof using.
    intros [c d ps o0 f j s cs jp sp w g0 Hc Hn Hs Hd|d ps o0 f loc lo g0 Hn Hf Hl Hw Hd|d ps o0 f l s g0 Hn Hf Hs Hw Hd]; cbn [set_guesses].
    - eapply (well_simple wrap F c _ ps o0 f j s cs jp sp w (Some g) Hc); [apply NoDup_dset; exact Hn|exact Hs|]. eapply guess_map; [|exact Hd]. destruct c; reflexivity.
    - eapply (well_basin wrap F _ ps o0 f loc lo (Some g)); [apply NoDup_dset; exact Hn|exact Hf|exact Hl|exact Hw|]. eapply guess_map; [|exact Hd]. reflexivity.
    - eapply (well_chain wrap F _ ps o0 f l s (Some g)); [apply NoDup_dset; exact Hn|exact Hf|exact Hs|exact Hw|]. eapply guess_map; [|exact Hd]. reflexivity.
  Qed.
  Lemma well_chain_guesses o gs : well o -> List.length gs = chain_length o -> well (chain_guesses o gs).
  Proof using.
    intros [c d ps o0 f j s cs jp sp w g0 Hc Hn Hs Hd|d ps o0 f loc lo g0 Hn Hf Hl Hw Hd|d ps o0 f l s g0 Hn Hf Hs Hw Hd]; unfold chain_guesses, chain_length; cbn [attrs_of].
    - assert (E : dget d "minimizers" = None) by (rewrite Hd; destruct c, g0; reflexivity). rewrite E. intros _. eapply well_simple; eassumption.
    - assert (E : dget d "minimizers" = None) by (rewrite Hd; destruct g0; reflexivity). rewrite E. intros _. eapply well_basin; eassumption.
    - rewrite (Hd "minimizers"), (Hd "_pickle_kwargs").
      change (dget (chain_attrs F ps o0 f l s ++ guess_part g0) "minimizers") with (Some (VMins l)).
      change (dget (chain_attrs F ps o0 f l s ++ guess_part g0) "_pickle_kwargs") with (Some (VKwargs [("parameters", VParams ps); ("objective", o0); ("minimizers", VMins l)])). cbv iota. intros Hlen.
      change (dset [("parameters", VParams ps); ("objective", o0); ("minimizers", VMins l)] "minimizers" (VMins (guess_each l gs))) with [("parameters", VParams ps); ("objective", o0); ("minimizers", VMins (guess_each l gs))].
      assert (Hnames : names_of_chain (guess_each l gs) = names_of_chain l).
      { unfold names_of_chain, guess_each. rewrite map_map. clear -Hlen. revert gs Hlen. induction l as [|m l IH]; intros [|g gs] H; try discriminate; [reflexivity|]. cbn. rewrite IH by (cbn in H; lia).
        f_equal. destruct g, m; reflexivity. }
      eapply (well_chain wrap F _ ps o0 f (guess_each l gs) s g0); [apply NoDup_dset, NoDup_dset; exact Hn|exact Hf|rewrite Hnames; exact Hs| |].
      + intros m Hm. apply in_map_iff in Hm as ([a g] & <- & Hin). apply in_combine_l in Hin. cbn [snd fst]. destruct g; [apply well_guess|]; apply Hw; exact Hin.
      + intros k. rewrite !dget_dset. rewrite !(Hd k). rewrite !dget_app. unfold chain_attrs, base_attrs. cbn [app dget].
        repeat match goal with |- context [eq_dec ?x ?s] => is_var x; destruct (eq_dec x s) as [->|?]; [reflexivity|] end. reflexivity.
  Qed.
  Lemma reached_well o : reached wrap F o -> well o.
  Proof using.
    induction 1 as [h c args kw o Hh _ IHm _ IHl Hn Hc|o g _ IH|o gs _ IH Hl|h o o' Hh _ IH Hc].
    - unfold new in Hn. rewrite (make_flags wrap F 3 h Hh) in Hn. exact (well_make 3 (le_n _) c args kw o Hc IHm IHl Hn).
    - apply well_guess. exact IH.
    - apply well_chain_guesses; assumption.
    - destruct (well_copy wrap F o IH h Hh) as (o2 & E & W & _). rewrite Hc in E. injection E as <-. exact W.
  Qed.
  Theorem copy_alike o h : reached wrap F o -> fixes h F -> exists o', copy wrap h o = Ok o' /\ reached wrap F o' /\ alike o o'.
  Proof using.
    intros Hr Hh. destruct (well_copy wrap F o (reached_well o Hr) h Hh) as (o' & E & _ & A). exists o'. split; [exact E|]. split; [|exact A]. exact (reached_copy wrap F h o o' Hh Hr E).
  Qed.

  (** ** Creation *)
  Lemma bind_two (a b : aval) kw r : sig_bind [pos_param "objective"; pos_param "parameters"] [a; b] kw = Ok r -> kw = [] /\ r = [("objective", a); ("parameters", b)].
  Proof using.
    unfold sig_bind, sig_bind_gen. cbn [bind_pos sp_kwonly pos_param sp_name]. destruct (dmem kw "objective"); [discriminate|]. destruct (dmem kw "parameters"); [discriminate|]. cbn [bind app bind_kw map].
    destruct kw as [|[k v] kw]; [|discriminate]. intros H. injection H as <-. auto.
  Qed.
  Lemma bind_error (a b : aval) kw : kw <> [] -> sig_bind [pos_param "objective"; pos_param "parameters"] [a; b] kw = Raise TypeError.
  Proof using.
    intros H. unfold sig_bind, sig_bind_gen. cbn [bind_pos sp_kwonly pos_param sp_name]. destruct (dmem kw "objective"); [reflexivity|]. destruct (dmem kw "parameters"); [reflexivity|]. cbn [bind app bind_kw map].
    destruct kw as [|[k v] kw]; [contradiction|]. reflexivity.
  Qed.
End Thm.
