(** * MinExecRun: executing a chain: which calls of scipy it makes. *)
From Coq Require Import Reals Lia.
From Verif Require Import PyBase PyFacts Signature SignatureFacts Expr NumPy Model Objective Minimizer MinSpec MinFacts MinLemmas MinObj MinObjSpec MinObjFacts MinObjMain MinExec MinExecSpec MinExecFacts MinExecMain MinExecAgain MinExecChain.
Local Open Scope string_scope.
Local Open Scope list_scope.

Section Run.
  Context {raw U : Type} (scipy : seen_call raw U -> res answer).
  Notation options := (options U).
  Notation store := (store U).
  Notation object := (object raw).
  Implicit Types (kw d : options) (st : store).
  Ltac inv H := match type of H with bind ?X _ = _ => let e := fresh "E" in destruct X as [?|] eqn:e; [|discriminate H]; cbn [bind] in H end.

  (** ** where scipy starts *)
  Lemma x0_chain h cls (self : attrs raw) g rest : dget self "_initial_guesses" = Some (VVector g) -> ~ In (Concrete DifferentialEvolution) rest ->
    forall st kw st' c, exec_chain h cls self rest st kw = Ok (st', c) -> ca_x0 c = Some g.
  Proof using.
    intros Hg. assert (HG : guesses h self = Ok g) by (unfold guesses; rewrite Hg; reflexivity).
    induction rest as [|x rest IH]; intros Hn st kw st' c H; [discriminate H|].
    assert (IH' : forall st kw st' c, exec_chain h cls self rest st kw = Ok (st', c) -> ca_x0 c = Some g) by (intros; eapply IH; [intros Hi; apply Hn; right; exact Hi|eassumption]). clear IH.
    assert (HS : forall (a b : store * scall raw U), Ok a = Ok b -> snd a = snd b) by congruence.
    destruct x as [| | | | | | | | | | | |k]; cbn [exec_chain] in H; try (eapply IH'; exact H).
    all: try (destruct k; cbn [exec_chain] in H; try (eapply IH'; exact H); try (exfalso; apply Hn; left; reflexivity)).
    all: unfold take in H; rewrite ?HG in H.
    all: repeat (match type of H with
      | bind (Ok _) _ = _ => cbn [bind] in H
      | bind ?X _ = Ok _ => destruct X as [?|] eqn:?; [|discriminate H]; cbn [bind] in H
      | exec_chain _ _ _ _ _ _ = _ => eapply IH'; exact H
      | (let '(_, _) := ?X in _) = _ => destruct X eqn:?
      | match ?X with _ => _ end = Ok _ => destruct X eqn:?; try discriminate H
      | (if ?X then _ else _) = _ => destruct X eqn:?
      | Ok (?a, ?b) = Ok (?c, ?d) => injection H as <- <-; reflexivity
      end).
  Qed.
  Lemma x0_call h (m : object) g st kw st' c : class_of m <> ChainedMinimizer -> (exists k, class_of m = Concrete k) -> one_call h (set_guesses m g) st kw = Ok (st', c) ->
    ca_x0 c = match class_of m with Concrete DifferentialEvolution => None | _ => Some g end.
  Proof using.
    intros Hc (k & Hk) H. destruct m as [cl self]. cbn [class_of] in *. subst cl. cbn [set_guesses one_call] in H.
    assert (HB : k <> DifferentialEvolution -> ca_x0 c = Some g).
    { intros Hne. revert H. apply x0_chain; [apply dget_dset_eq|]. clear -Hne. intros Hi. destruct k; try congruence; vm_compute in Hi; repeat (destruct Hi as [Hi|Hi]; [discriminate Hi|]); exact Hi. }
    destruct k; try (apply HB; discriminate).
    let m := eval vm_compute in (mro (Concrete DifferentialEvolution)) in change (mro (Concrete DifferentialEvolution)) with m in H. cbn [exec_chain] in H. unfold take in H.
    repeat match type of H with
      | bind (Ok _) _ = _ => cbn [bind] in H
      | bind ?X _ = Ok _ => destruct X as [?|] eqn:?; [|discriminate H]; cbn [bind] in H
    end. injection H as <- <-. reflexivity.
  Qed.

  Context (bound : options) (D : string -> options) (N : nat).
  Notation root := (root bound).
  Notation opened_options := (opened_options bound).
  Notation expected := (expected bound D).
  Hypothesis (g1 : forall n b, uses (D n) b -> b < N) (g2 : forall n b, uses (D n) b -> ~ root b) (g3 : forall n1 n2 b, n1 <> n2 -> uses (D n1) b -> uses (D n2) b -> False) (g4 : forall a, root a -> a < N).

  Lemma chain_calls n h names : forall l st guess st' l' calls answers, NoDup (map sp_name names) -> (forall m, In m l -> class_of m <> ChainedMinimizer) -> expected st names -> N <= List.length st ->
    List.length names = List.length l ->
    chain_run (run scipy (S n) h) h bound l names st guess = Ok (st', l', calls, answers) ->
    List.length calls = List.length l /\ List.length answers = List.length l /\
    forall k m p c, nth_error l k = Some m -> nth_error names k = Some p -> nth_error calls k = Some c ->
      (exists a, nth_error answers k = Some a /\ scipy c = Ok a) /\
      exists g stk stk' ck, starts h l answers guess k g /\ (forall b, uses (D (sp_name p)) b -> nth_error stk b = nth_error st b) /\
        one_call h (set_guesses m g) stk (D (sp_name p)) = Ok (stk', ck) /\ c = see stk' ck.
  Proof using g1 g2 g3 g4.
    induction names as [|p names IH]; intros l st guess st' l' calls answers Hnd Hfl Hex HN Hlen H; (destruct l as [|m l]; try discriminate Hlen).
    { cbn [chain_run] in H. injection H as <- <- <- <-. split; [reflexivity|]. split; [reflexivity|]. intros [|k]; discriminate. }
    cbn [map] in Hnd. apply NoDup_cons_iff in Hnd as (Hnp & Hnd).
    cbn [chain_run] in H. fold (opened_options st p) in H. destruct (opened_options st p) as [d|] eqn:Ed; [|discriminate H]. cbn [bind] in H.
    pose proof (Hex p d (or_introl eq_refl) Ed) as HdD.
    match type of H with bind ?X _ = _ => destruct X as [r|] eqn:Er; [|discriminate H] end. cbn [bind] in H.
    assert (Hcl : class_of (set_guesses m guess) <> ChainedMinimizer) by (rewrite class_set_guesses; apply Hfl; left; reflexivity).
    destruct (run_single _ _ _ _ _ _ _ Hcl Er) as (c & a & Hone & Hsc & Hr).
    assert (Hw : within d st) by (intros b Hb; rewrite HdD in Hb; apply g1 in Hb; lia).
    destruct (repeats_call h _ st d _ c Hw Hone) as (HL & HO & _). set (st1 := oc_store r) in *. clearbody st1.
    inv H. inv H. match type of H with bind ?X _ = _ => destruct X as [[[[st2 l2] calls2] answers2]|] eqn:E2; [|discriminate H] end. cbn [bind] in H. injection H as <- <- <- <-.
    rewrite Hr in E0. cbn [oc_store oc_answer] in E0. rewrite Hr. cbn [oc_object oc_calls oc_answer].
    assert (Hst1 : forall b, root b -> nth_error st1 b = nth_error st b).
    { intros b Hb. apply HO; [apply g4 in Hb; lia|]. rewrite HdD. intros Hu. exact (g2 _ _ Hu Hb). }
    assert (Hex1 : expected st1 names).
    { intros p' d' Hp' Hd'. rewrite (opened_options_ext bound st1 st p' Hst1) in Hd'. exact (Hex p' d' (or_intror Hp') Hd'). }
    assert (HN1 : N <= List.length st1) by lia.
    destruct (IH l st1 _ _ _ _ _ Hnd (fun m Hm => Hfl m (or_intror Hm)) Hex1 HN1 (eq_add_S _ _ Hlen) E2) as (I1 & I2 & I3); clear IH.
    cbn [List.length app]. split; [lia|]. split; [lia|]. intros [|k] m0 p0 c0 Hm0 Hp0 Hc0.
    - cbn in Hm0, Hp0, Hc0. injection Hm0 as <-. injection Hp0 as <-. injection Hc0 as <-. split; [exists a; split; [reflexivity|exact Hsc]|].
      exists guess, st, st1, c. split; [reflexivity|]. split; [reflexivity|]. split; [rewrite <- HdD; exact Hone|reflexivity].
    - cbn [nth_error] in Hm0, Hp0, Hc0 |- *. destruct (I3 k m0 p0 c0 Hm0 Hp0 Hc0) as (J1 & g & stk & stk' & ck & Hs & Hb & Ho & ->). split; [exact J1|].
      exists g, stk, stk', ck. split; [|split; [|split; [exact Ho|reflexivity]]].
      + destruct k as [|j].
        * cbn [starts] in Hs. subst g. cbn [starts nth_error]. unfold params_attr, getattr in E. destruct (dget (attrs_of m) "parameters") as [v|] eqn:Ev; [|discriminate E]. cbn [of_opt bind] in E. destruct v; try discriminate E. injection E as ->.
          eexists m, a, _, _. split; [reflexivity|]. split; [reflexivity|]. split; [exact Ev|]. split; [exact E0|]. reflexivity.
        * exact Hs.
      + intros b Hu. rewrite Hb by exact Hu. apply HO; [apply g1 in Hu; lia|]. rewrite HdD. intros Hu'. apply (g3 (sp_name p) (sp_name p0) b); [|exact Hu'|exact Hu].
        intros Eq. apply Hnp. rewrite Eq. apply in_map. exact (nth_error_In _ _ Hp0).
  Qed.
End Run.

Section Whole.
  Context {raw U : Type} (scipy : seen_call raw U -> res answer).
  Notation options := (options U).
  Notation store := (store U).
  Implicit Types (kw d : options) (st : store).
  Ltac inv H := match type of H with bind ?X _ = _ => let e := fresh "E" in destruct X as [?|] eqn:e; [|discriminate H]; cbn [bind] in H end.

  Lemma bind_kw_keep (ps : list sparam) kw acc out n v : bind_kw false ps kw acc = Ok out -> dget acc n = Some v -> dget out n = Some v.
  Proof using.
    revert acc. induction ps as [|p ps IH]; intros acc H Hn; cbn [bind_kw] in H; [injection H as <-; exact Hn|]. destruct (dget kw (sp_name p)) as [w|].
    - apply (IH _ H). rewrite dget_app, Hn. reflexivity.
    - destruct (false || sp_default p); [|discriminate]. exact (IH _ H Hn).
  Qed.
  Lemma bind_kw_put (ps : list sparam) kw acc out p v : bind_kw false ps kw acc = Ok out -> In p ps -> dget kw (sp_name p) = Some v -> dget out (sp_name p) <> None.
  Proof using.
    revert acc. induction ps as [|q ps IH]; intros acc H Hp Hv; [destruct Hp|]. cbn [bind_kw] in H. destruct Hp as [->|Hp].
    - rewrite Hv in H. destruct (dget acc (sp_name p)) as [u|] eqn:Ea; [rewrite (bind_kw_keep _ _ _ _ _ u H); [discriminate|rewrite dget_app, Ea; reflexivity]|].
      rewrite (bind_kw_keep _ _ _ _ _ v H); [discriminate|]. rewrite dget_app, Ea. cbn. destruct (eq_dec (sp_name p) (sp_name p)); congruence.
    - destruct (dget kw (sp_name q)); [exact (IH _ H Hp Hv)|]. destruct (false || sp_default q); [|discriminate]. exact (IH _ H Hp Hv).
  Qed.
  Lemma bound_is (s : signature) kw b p : sig_bind s [] kw = Ok b -> In p s -> dget b (sp_name p) = dget kw (sp_name p).
  Proof using.
    intros H Hp. destruct (dget b (sp_name p)) as [v|] eqn:E; [symmetry; exact (bound_get _ _ _ _ _ H E)|].
    destruct (dget kw (sp_name p)) as [v|] eqn:Ek; [|reflexivity]. exfalso. unfold sig_bind, sig_bind_gen in H. cbn [bind_pos bind] in H. inv H. destruct (forallb _ _); [|discriminate]. injection H as <-.
    exact (bind_kw_put _ _ _ _ _ _ E0 Hp Ek E).
  Qed.

  Lemma total_iterations (answers : list answer) nit : foldM (fun n a => k <- of_opt TypeError (an_nit a) ;; Ok (n + k)%nat) 0%nat answers = Ok nit ->
    exists ns, map an_nit answers = map Some ns /\ nit = list_sum ns.
  Proof using.
    assert (G : forall acc, foldM (fun n a => k <- of_opt TypeError (an_nit a) ;; Ok (n + k)%nat) acc answers = Ok nit -> exists ns, map an_nit answers = map Some ns /\ nit = (acc + list_sum ns)%nat).
    { induction answers as [|a l IH]; intros acc H; cbn [foldM] in H; [injection H as <-; exists []; split; [reflexivity|cbn; lia]|]. destruct (an_nit a) as [k|] eqn:E; [|discriminate]. cbn [of_opt bind] in H.
      destruct (IH _ H) as (ns & H1 & ->). exists (k :: ns). cbn [map]. rewrite E, H1. split; [reflexivity|]. unfold list_sum in *. cbn [fold_right]. lia. }
    intros H. destruct (G 0%nat H) as (ns & H1 & H2). exists ns. auto.
  Qed.

  Theorem chain_execute n h (self : attrs raw) st kw r l s :
    dget self "minimizers" = Some (VMins l) -> (forall m, In m l -> exists c, class_of m = Concrete c) ->
    dget self "__signature__" = Some (VSignature s) -> chain_signature (map (fun o => py_name (class_of o)) l) = Ok s ->
    apart st kw -> run scipy n h (Obj ChainedMinimizer self) st kw = Ok r ->
    exists guess answers final, guesses h self = Ok guess /\ List.length (oc_calls r) = List.length l /\ List.length answers = List.length l /\
      (forall k m name c, nth_error l k = Some m -> nth_error (chain_names (map (fun o => py_name (class_of o)) l)) k = Some name -> nth_error (oc_calls r) k = Some c ->
        (exists a, nth_error answers k = Some a /\ scipy c = Ok a) /\
        exists g stk stk' ck, starts h l answers guess k g /\ se_x0 c = match class_of m with Concrete DifferentialEvolution => None | _ => Some g end /\
          (forall b, uses (own_options st kw name) b -> nth_error stk b = nth_error st b) /\
          one_call h (set_guesses m g) stk (own_options st kw name) = Ok (stk', ck) /\ c = see stk' ck) /\
      nth_error answers (List.length l - 1) = Some final /\ an_x (oc_answer r) = an_x final /\
      exists ns, map an_nit answers = map Some ns /\ an_nit (oc_answer r) = Some (list_sum ns).
  Proof using.
    intros Hl Hfl' Hs Hcs (A1 & A2 & A3 & A4) H. assert (Hfl : forall m, In m l -> class_of m <> ChainedMinimizer) by (intros m Hm; destruct (Hfl' m Hm) as (c & ->); discriminate).
    destruct n as [|n]; [discriminate|]. cbn [run] in H. unfold getattr in H at 1 2. rewrite Hl, Hs in H. cbn [of_opt bind] in H.
    match type of H with bind ?X _ = _ => destruct X as [kv|] eqn:Ek; [|discriminate H] end. cbn [bind] in H. destruct kv; try discriminate H. match type of Ek with _ = Ok (VKwargs ?k) => rename k into kw0 end.
    match type of H with bind ?X _ = _ => destruct X as [bound|] eqn:Eb; [|discriminate H] end. cbn [bind] in H.
    match type of H with bind ?X _ = _ => destruct X as [guess|] eqn:Eg; [|discriminate H] end. cbn [bind] in H.
    match type of H with bind ?X _ = _ => destruct X as [[[[st2 l2] calls2] answers2]|] eqn:E2; [|discriminate H] end. cbn [bind] in H.
    match type of H with bind ?X _ = _ => destruct X as [final|] eqn:Ef; [|discriminate H] end. cbn [bind] in H.
    match type of H with bind ?X _ = _ => destruct X as [nit|] eqn:En; [|discriminate H] end. cbn [bind] in H.
    injection H as <-. cbn [oc_object oc_store oc_calls oc_answer an_x an_nit].
    set (nl := map (fun o => py_name (class_of o)) l) in *.
    assert (Hsn : NoDup (map sp_name s) /\ map sp_name s = chain_names nl).
    { destruct (in_dec (fun a b => bool_dec a b) (nodupb (chain_names nl)) [true]) as [Hi|Hi].
      - cbn in Hi. destruct Hi as [Hi|[]]. symmetry in Hi. apply nodupb_iff in Hi. destruct (proj1 (chain_signature_spec nl) Hi) as (s' & Hs' & Hm & _). rewrite Hcs in Hs'. injection Hs' as <-. rewrite Hm. auto.
      - exfalso. rewrite (proj2 (chain_signature_spec nl)) in Hcs; [discriminate|]. intros Hi'. apply Hi. apply nodupb_iff in Hi'. rewrite Hi'. left. reflexivity. }
    destruct Hsn as (Hnd & Hsn).
    assert (Hlen : List.length s = List.length l) by (rewrite <- (map_length sp_name s), Hsn, chain_names_length; apply map_length).
    set (D := fun nm : string => own_options st bound nm).
    assert (HD : forall nm b, uses (D nm) b -> exists a d, dget kw nm = Some (ODict a) /\ nth_error st a = Some d /\ uses d b).
    { intros nm b. unfold D, own_options. destruct (dget bound nm) as [v|] eqn:Ev; [|intros (? & [])]. destruct v; try (intros (? & [])). destruct (nth_error st a) as [e|] eqn:Ea; [|intros (? & [])]. intros Hu. exists a, e. split; [exact (bound_get _ _ _ _ _ Eb Ev)|]. auto. }
    assert (HRt : forall a, root bound a -> exists nm, dget kw nm = Some (ODict a)) by (intros a (nm & Hn); exists nm; exact (bound_get _ _ _ _ _ Eb Hn)).
    assert (Hn1 : exists n', n = S n').
    { destruct n as [|n']; [|exists n'; reflexivity]. exfalso. destruct l as [|m l]; [cbn in E2; injection E2 as <- <- <- <-; cbn in Ef; discriminate|]. destruct s as [|p s0]; [cbn in E2; injection E2 as <- <- <- <-; cbn in Ef; discriminate|].
      cbn [chain_run] in E2. match type of E2 with bind ?X _ = _ => destruct X; [|discriminate E2] end. discriminate E2. }
    destruct Hn1 as (n' & ->).
    pose proof (fun g1 g2 g3 g4 n5 n6 n7 n8 n9 => chain_calls scipy bound D (List.length st) g1 g2 g3 g4 n' h s l st guess st2 l2 calls2 answers2 n5 n6 n7 n8 n9 E2) as HC. clear E2.
    destruct HC as (HL & HO & HA).
    { intros nm b Hu. destruct (HD nm b Hu) as (a & d & Hk & Ha & Hd). exact (A2 _ _ _ _ Hk Ha Hd). }
    { intros nm b Hu Hr. destruct (HD nm b Hu) as (a & d & Hk & Ha & Hd). destruct (HRt b Hr) as (nm' & Hn'). exact (A3 _ _ _ _ _ Hk Ha Hd Hn'). }
    { intros n1 n2 b Hne H1 H2. destruct (HD n1 b H1) as (a1 & d1 & Hk1 & Ha1 & Hd1). destruct (HD n2 b H2) as (a2 & d2 & Hk2 & Ha2 & Hd2). exact (A4 _ _ _ _ _ _ _ Hne Hk1 Ha1 Hd1 Hk2 Ha2 Hd2). }
    { intros a Hr. destruct (HRt a Hr) as (nm & Hn). exact (A1 _ _ Hn). }
    { exact Hnd. }
    { exact Hfl. }
    { intros p d Hp Hd. unfold opened_options in Hd. unfold D, own_options. destruct (dget bound (sp_name p)) as [v|]; [|injection Hd as <-; reflexivity]. destruct v; try discriminate Hd. cbn [read] in Hd. destruct (nth_error st a); [|discriminate]. cbn in Hd. injection Hd as <-. reflexivity. }
    { lia. }
    { exact Hlen. }
    exists guess, answers2, final. split; [reflexivity|]. split; [exact HL|]. split; [exact HO|]. split; [|split; [|split; [reflexivity|]]].
    - intros k m name c Hm Hnm Hc. rewrite <- Hsn in Hnm. destruct (nth_error s k) as [p|] eqn:Ep.
      2:{ exfalso. apply nth_error_None in Ep. assert (k < List.length l) by (apply nth_error_Some; congruence). lia. }
      rewrite (map_nth_error sp_name k s Ep) in Hnm. injection Hnm as <-.
      assert (EDp : D (sp_name p) = own_options st kw (sp_name p)) by (unfold D, own_options; rewrite (bound_is s kw bound p Eb (nth_error_In _ _ Ep)); reflexivity).
      destruct (HA k m p c Hm Ep Hc) as (J1 & g & stk & stk' & ck & Hst & Hb & Ho & ->). split; [exact J1|]. exists g, stk, stk', ck. rewrite <- EDp.
      split; [exact Hst|]. split; [|split; [exact Hb|split; [exact Ho|reflexivity]]]. cbn [see se_x0].
      apply (x0_call h m g _ _ _ _ (Hfl m (nth_error_In _ _ Hm)) (Hfl' m (nth_error_In _ _ Hm)) Ho).
    - rewrite <- HO. destruct answers2 as [|a0 l0] using rev_ind; [cbn in Ef; discriminate|]. rewrite rev_app_distr in Ef. cbn in Ef. injection Ef as <-. rewrite app_length. cbn [List.length].
      rewrite nth_error_app2 by lia. replace (List.length l0 + 1 - 1 - List.length l0)%nat with 0%nat by lia. reflexivity.
    - destruct (total_iterations answers2 nit En) as (ns & H1 & ->). exists ns. auto.
  Qed.
End Whole.
