(** * PickleFacts: pickled models behave like the original. *)
From Verif Require Import PyBase PyFacts Signature Expr Toposort Model Jacobian Cached CachedSpec CachedFacts Pickle.

Section Facts.
  Context {W : Type} (A : alg W) (simp : expr -> expr) (ord : list sym -> list sym).
  Notation KS := (model_class A simp ord).
  Notation KN := (numerical_class A).

  Definition rank (a : string) : nat :=
    if eq_dec a "connectivity_mapping" then 1
    else if inb a ["vars"; "numerical_components"; "jacobian_model"; "hessian_model"] then 2 else 0.
  Lemma rank_small a : rank a < 3.
  Proof. unfold rank. destruct (eq_dec a _); [lia|]. destruct (inb _ _); lia. Qed.

  Definition readable : list string :=
    ["model_dict"; "connectivity_mapping"; "_connectivity_mapping"; "independent_vars"; "dependent_vars"; "interdependent_vars"; "_params"; "sigmas"; "__signature__"].

  Lemma may_read_ret (r : res (mval (W:=W))) b : ~ may_read (PRet r) b.
  Proof. intros H. inversion H. Qed.
  Lemma get_read (a : string) (k : res (mval (W:=W)) -> prog) b : may_read (PGet a k) b -> b = a \/ exists r, may_read (k r) b.
  Proof. intros H. inversion H; subst; [left; reflexivity|right; eexists; eassumption]. Qed.

  Ltac reads H := repeat (first [ apply may_read_ret in H; contradiction
    | apply get_read in H as [H|[r H]]; [ | destruct r as [[]|]; try (apply may_read_ret in H; contradiction)] ]).

  Lemma with_model_reads conn (k : model (V:=W) -> prog) b : (forall m, ~ may_read (k m) b) -> may_read (with_model conn k) b ->
    b = conn \/ (In b readable /\ rank b = 0).
  Proof.
    intros Hk H. unfold with_model, get_dict, get_conn, get_syms, get_sig in H.
    repeat (apply get_read in H as [H|[r H]];
      [ first [left; exact H | right; rewrite H; split; [unfold readable; simpl; tauto|reflexivity]]
      | destruct r as [[]|]; try (apply may_read_ret in H; contradiction)]).
    exfalso. exact (Hk _ H).
  Qed.

  Lemma vars_reads b : may_read (vars_body (W:=W)) b -> In b readable /\ rank b = 0.
  Proof.
    intros H. unfold vars_body, get_syms, get_sigmas in H.
    repeat (apply get_read in H as [H|[r H]];
      [ rewrite H; split; [unfold readable; simpl; tauto|reflexivity]
      | destruct r as [[]|]; try (apply may_read_ret in H; contradiction)]).
  Qed.
  Lemma conn_reads b : may_read (conn_body (W:=W) ord) b -> b = "model_dict".
  Proof.
    intros H. unfold conn_body, get_dict in H. apply get_read in H as [H|[r H]]; [exact H|].
    destruct r as [[]|]; apply may_read_ret in H; contradiction.
  Qed.

  Lemma class_bodies (a : string) body : dget KS a = Some body ->
    (a = "connectivity_mapping" /\ body = conn_body ord) \/ (a = "vars" /\ body = vars_body) \/
    (rank a = 2 /\ exists k, body = with_model "connectivity_mapping" k /\ forall m b, ~ may_read (k m) b).
  Proof.
    unfold model_class. intros H. apply dget_In in H. simpl in H.
    destruct H as [H|[H|[H|[H|[H|[]]]]]]; injection H as <- <-; [left; auto|right; left; auto| | |];
      right; right; (split; [reflexivity|]); eexists; (split; [reflexivity|]); intros m b; apply may_read_ret.
  Qed.

  Lemma readable_clean b : In b readable -> String.prefix base_str b = false.
  Proof. unfold readable. simpl. intros H. repeat (destruct H as [<-|H]; [reflexivity|]). contradiction. Qed.

  Lemma ranked_sym : ranked KS rank.
  Proof.
    intros a body b Hk Hr. apply class_bodies in Hk as [[-> ->]|[[-> ->]|(Ha & k & -> & Hn)]].
    - apply conn_reads in Hr. subst b. vm_compute. lia.
    - apply vars_reads in Hr as [_ ->]. vm_compute. lia.
    - apply with_model_reads in Hr as [->|[_ ->]]; [rewrite Ha; vm_compute; lia|lia|auto].
  Qed.
  Lemma clean_sym a body b : dget KS a = Some body -> may_read body b -> String.prefix base_str b = false.
  Proof.
    intros Hk Hr. apply class_bodies in Hk as [[-> ->]|[[-> ->]|(Ha & k & -> & Hn)]].
    - apply conn_reads in Hr. subst b. reflexivity.
    - apply vars_reads in Hr as [Hr _]. apply readable_clean. exact Hr.
    - apply with_model_reads in Hr as [->|[Hr _]]; [reflexivity|apply readable_clean; exact Hr|auto].
  Qed.

  Lemma num_bodies (a : string) body : dget KN a = Some body ->
    (a = "vars" /\ body = vars_body) \/
    (rank a = 2 /\ exists k, body = with_model "_connectivity_mapping" k /\ forall m b, ~ may_read (k m) b).
  Proof.
    unfold numerical_class. intros H. apply dget_In in H. simpl in H.
    destruct H as [H|[H|[]]]; injection H as <- <-; [left; auto|].
      right; (split; [reflexivity|]); eexists; (split; [reflexivity|]); intros m b; apply may_read_ret.
  Qed.
  Lemma ranked_num : ranked KN rank.
  Proof.
    intros a body b Hk Hr. apply num_bodies in Hk as [[-> ->]|(Ha & k & -> & Hn)].
    - apply vars_reads in Hr as [_ ->]. vm_compute. lia.
    - apply with_model_reads in Hr as [->|[_ ->]]; [rewrite Ha; vm_compute; lia|lia|auto].
  Qed.
  Lemma clean_num a body b : dget KN a = Some body -> may_read body b -> String.prefix base_str b = false.
  Proof.
    intros Hk Hr. apply num_bodies in Hk as [[-> ->]|(Ha & k & -> & Hn)].
    - apply vars_reads in Hr as [Hr _]. apply readable_clean. exact Hr.
    - apply with_model_reads in Hr as [->|[Hr _]]; [reflexivity|apply readable_clean; exact Hr|auto].
  Qed.

  Lemma make_sig_ext (K : klass (V:=mval (W:=W))) (d d' : dict string (mval (W:=W))) :
    ordinary K "independent_vars" -> ordinary K "_params" ->
    (forall b, ordinary K b -> b <> sig_attr -> dget d b = dget d' b) -> make_sig d = make_sig d'.
  Proof.
    intros H1 H2 He. unfold make_sig.
    assert (N1 : "independent_vars" <> sig_attr) by (vm_compute; discriminate).
    assert (N2 : "_params" <> sig_attr) by (vm_compute; discriminate).
    rewrite (He _ H1 N1), (He _ H2 N2). reflexivity.
  Qed.


  Lemma seen_plain K conn fuel st : ranked K rank ->
    (forall a body b, dget K a = Some body -> may_read body b -> String.prefix base_str b = false) ->
    3 <= fuel -> String.prefix base_str conn = false -> coherent K rank st ->
    seen_model (W:=W) K conn fuel st =
      match run_plain (plain K fuel (attrs st)) (read_prog conn) with
      | Ok (MModel m) => Ok m | Ok _ => Raise TypeError | Raise e => Raise e end.
  Proof.
    intros Hr Hc Hf Hp Hco. unfold seen_model.
    assert (Hreads : forall b, may_read (read_prog (W:=W) conn) b -> String.prefix base_str b = false /\ rank b < fuel).
    { intros b Hb. split; [|pose proof (rank_small b); lia]. apply with_model_reads in Hb as [->|[Hb _]]; [exact Hp|apply readable_clean; exact Hb|].
      intros m. apply may_read_ret. }
    destruct (run_coherent K rank Hr Hc fuel (read_prog conn)) with (s := st) as (E & _ & _).
    - intros b s Hb Hs. destruct (Hreads b Hb). apply (getattr_coherent K rank Hr Hc); auto.
    - exact Hreads.
    - exact Hco.
    - cbv zeta in E. rewrite <- E. destruct (run _ _ st) as [[v|e] s']; reflexivity.
  Qed.

  Lemma plain_ordinary K fuel (d : dict string (mval (W:=W))) a : dget K a = None -> plain K (S fuel) d a = of_opt AttributeError (dget d a).
  Proof. intros H. simpl. rewrite H. reflexivity. Qed.

  Lemma plain_property K fuel (d : dict string (mval (W:=W))) a body : dget K a = Some body -> plain K (S fuel) d a = run_plain (plain K fuel d) body.
  Proof. intros H. simpl. rewrite H. reflexivity. Qed.

  (** The attributes of [d] describe the model [m]. *)
  Definition describes (d : dict string (mval (W:=W))) (m : model (V:=W)) : Prop :=
    forall a v, dget (plain_attrs m) a = Some v -> dget d a = Some v.

  Lemma seen_of_attrs (K : klass) conn fuel d m :
    (forall a, In a ["model_dict"; "independent_vars"; "dependent_vars"; "interdependent_vars"; "_params"; "__signature__"] -> dget K a = None) ->
    describes d m -> plain K (S fuel) d conn = Ok (MConn (m_conn m)) ->
    run_plain (plain K (S fuel) d) (read_prog conn) = Ok (MModel m).
  Proof.
    intros HK Hd Hc. unfold read_prog, with_model, get_dict, get_conn, get_syms, get_sig.
    cbn [run_plain]. rewrite (plain_ordinary K fuel d "model_dict") by (apply HK; simpl; tauto). rewrite (Hd "model_dict" (MDict (m_dict m)) eq_refl). cbn [of_opt run_plain].
    rewrite Hc. cbn [run_plain].
    rewrite (plain_ordinary K fuel d "independent_vars") by (apply HK; simpl; tauto). rewrite (Hd "independent_vars" (MSyms (m_indep m)) eq_refl). cbn [of_opt run_plain].
    rewrite (plain_ordinary K fuel d "dependent_vars") by (apply HK; simpl; tauto). rewrite (Hd "dependent_vars" (MSyms (m_dep m)) eq_refl). cbn [of_opt run_plain].
    rewrite (plain_ordinary K fuel d "interdependent_vars") by (apply HK; simpl; tauto). rewrite (Hd "interdependent_vars" (MSyms (m_inter m)) eq_refl). cbn [of_opt run_plain].
    rewrite (plain_ordinary K fuel d "_params") by (apply HK; simpl; tauto). rewrite (Hd "_params" (MSyms (m_params m)) eq_refl). cbn [of_opt run_plain].
    rewrite (plain_ordinary K fuel d "__signature__") by (apply HK; simpl; tauto). rewrite (Hd "__signature__" (MSig (m_sig m)) eq_refl). cbn [of_opt run_plain].
    destruct m; reflexivity.
  Qed.

  Lemma sym_names a : In a ["model_dict"; "independent_vars"; "dependent_vars"; "interdependent_vars"; "_params"; "__signature__"] -> dget KS a = None.
  Proof. simpl. intros H. repeat (destruct H as [<-|H]; [reflexivity|]). contradiction. Qed.
  Lemma num_names a : In a ["model_dict"; "independent_vars"; "dependent_vars"; "interdependent_vars"; "_params"; "__signature__"] -> dget KN a = None.
  Proof. simpl. intros H. repeat (destruct H as [<-|H]; [reflexivity|]). contradiction. Qed.

  Lemma describes_same K st st' m : same_ordinary (V:=mval (W:=W)) K st st' ->
    (forall a, In a (map fst (plain_attrs m)) -> ordinary K a) -> describes (attrs st) m -> describes (attrs st') m.
  Proof.
    intros Hs Ho Hd a v Hv. rewrite Hs; [apply Hd; exact Hv|]. apply Ho. apply dget_Some_key in Hv. exact Hv.
  Qed.

  Definition model_ok (m : model (V:=W)) : Prop := make_signature (m_indep m) (m_params m) = Ok (m_sig m).

  Section Both.
    Variables (K : klass (V:=mval (W:=W))) (conn : string) (m : model (V:=W)) (s0 : ostate (V:=mval (W:=W))).
    Hypothesis Hr : ranked K rank.
    Hypothesis Hc : forall a body b, dget K a = Some body -> may_read body b -> String.prefix base_str b = false.
    Hypothesis Hconn : String.prefix base_str conn = false.
    Hypothesis Hnames : forall a, In a (map fst (plain_attrs m)) -> ordinary K a.
    Hypothesis Hco : coherent K rank s0.
    Hypothesis Hd : describes (attrs s0) m.
    Hypothesis Hpc : forall s, same_ordinary K s0 s -> forall f, 3 <= f -> plain K f (attrs s) conn = Ok (MConn (m_conn m)).
    Hypothesis Hok : model_ok m.
    Hypothesis Hnd : NoDup (dkeys (attrs s0)).

    Lemma seen_same fuel s : 3 <= fuel -> coherent K rank s -> same_ordinary K s0 s -> seen_model K conn fuel s = Ok m.
    Proof.
      intros Hf Hcs Hs. rewrite (seen_plain K conn fuel s Hr Hc Hf Hconn Hcs).
      destruct fuel as [|f]; [lia|]. rewrite (seen_of_attrs K conn f (attrs s) m); [reflexivity| | |].
      - intros a Ha. apply Hnames. simpl in *. tauto.
      - apply (describes_same K s0 s m Hs Hnames Hd).
      - apply Hpc; auto.
    Qed.

    Lemma getattr_nodup : forall f a s, NoDup (dkeys (attrs s)) -> NoDup (dkeys (attrs (snd (getattr K f a s)))).
    Proof.
      induction f as [|f IH]; intros a s Hn; simpl; [exact Hn|]. destruct (dget K a) as [body|]; [|exact Hn].
      destruct (dget (attrs s) (cache_attr a)); [exact Hn|].
      assert (Hrun : forall b s1, NoDup (dkeys (attrs s1)) -> NoDup (dkeys (attrs (snd (run (getattr K f) b s1))))).
      { induction b as [r|c k IHb]; intros s1 H1; simpl; [exact H1|]. specialize (IH c s1 H1). destruct (getattr K f c s1) as [r s2]. apply IHb. exact IH. }
      specialize (Hrun body {| attrs := attrs s; log := log s ++ [a] |} Hn). destruct (run _ body _) as [[v|e] s']; simpl in *; [|exact Hrun].
      apply NoDup_dset. exact Hrun.
    Qed.
    Lemma history_nodup fuel h : forall s, NoDup (dkeys (attrs s)) -> NoDup (dkeys (attrs (history K fuel h s))).
    Proof.
      induction h as [|o h IH]; intros s Hn; [exact Hn|]. cbn [history fold_left]. apply IH.
      destruct o as [a|a|a v]; simpl.
      - apply getattr_nodup. exact Hn.
      - unfold delattr. destruct (dget K a); simpl; [apply NoDup_map_filter'; exact Hn|]. destruct (dget (attrs s) a); simpl; [apply NoDup_map_filter'; exact Hn|exact Hn].
      - unfold setattr. destruct (dget K a); simpl; [exact Hn|apply NoDup_dset; exact Hn].
    Qed.

    Lemma pickle_spec fuel h : 3 <= fuel -> Forall (cache_op K) h ->
      let s := history K fuel h s0 in
      seen_model K conn fuel s = Ok m /\
      exists s', pickle_roundtrip make_sig s = Ok s' /\ seen_model K conn fuel s' = Ok m /\
        (forall p, dget (attrs s') (cache_attr p) = None) /\
        (forall a, String.prefix base_str a = false -> fst (getattr K fuel a s') = fst (getattr K fuel a s)).
    Proof.
      intros Hf Hh s.
      destruct (history_coherent K rank Hr Hc fuel h) with (s := s0) as [C S]; [intros a; pose proof (rank_small a); lia|exact Hh|exact Hco|]. fold s in C, S.
      split; [apply seen_same; auto|].
      pose proof (describes_same K s0 s m S Hnames Hd) as Hds.
      destruct (roundtrip_attrs K (make_sig (W:=W))) with (s := s) (sig := MSig (W:=W) (m_sig m)) as (s' & E & Ha & Hl).
      - intros d d' He. apply (make_sig_ext K); [apply Hnames; simpl; tauto|apply Hnames; simpl; tauto|exact He].
      - apply Hnames. simpl. tauto.
      - apply history_nodup. exact Hnd.
      - apply Hds. reflexivity.
      - unfold make_sig. rewrite (Hds "independent_vars" (MSyms (m_indep m)) eq_refl), (Hds "_params" (MSyms (m_params m)) eq_refl).
        unfold model_ok in Hok. rewrite Hok. reflexivity.
      - exists s'. split; [exact E|].
        assert (Hn : forall p, dget (attrs s') (cache_attr p) = None) by (intros p; rewrite Ha, cache_attr_prefix; reflexivity).
        assert (C' : coherent K rank s') by (apply no_cache_coherent; exact Hn).
        assert (S' : same_ordinary K s0 s').
        { intros b Hb. rewrite Ha. destruct Hb as [Hb1 Hb2]. rewrite Hb2. apply S. split; auto. }
        split; [apply seen_same; auto|]. split; [exact Hn|]. intros a Hp.
        apply (roundtrip_reads K rank Hr Hc); auto. intros b; pose proof (rank_small b); lia.
    Qed.
  End Both.

  (** Symbolic models *)
  Lemma pickle_symbolic m : model_ok m -> connectivity ord (m_dict m) = Ok (m_conn m) ->
    forall fuel h, 3 <= fuel -> Forall (cache_op KS) h ->
      let s := history KS fuel h (symbolic_object m) in
      seen_model KS "connectivity_mapping" fuel s = Ok m /\
      exists s', pickle_roundtrip make_sig s = Ok s' /\ seen_model KS "connectivity_mapping" fuel s' = Ok m /\
        (forall p, dget (attrs s') (cache_attr p) = None) /\
        (forall a, String.prefix base_str a = false -> fst (getattr KS fuel a s') = fst (getattr KS fuel a s)).
  Proof.
    intros Hok Hcon fuel h Hf Hh.
    assert (Hpl : forall d f, describes d m -> 2 <= f -> plain KS f d "connectivity_mapping" = Ok (MConn (m_conn m))).
    { intros d f Hd Hf2. destruct f as [|[|f]]; [lia|lia|].
      rewrite (plain_property KS (S f) d "connectivity_mapping" (conn_body (W:=W) ord) eq_refl). unfold conn_body, get_dict. cbn [run_plain].
      rewrite (plain_ordinary KS f d "model_dict") by reflexivity. rewrite (Hd "model_dict" (MDict (m_dict m)) eq_refl). cbn [of_opt run_plain].
      rewrite Hcon. reflexivity. }
    assert (Hnm : forall a, In a (map fst (plain_attrs m)) -> ordinary KS a).
    { simpl. intros a H. repeat (destruct H as [<-|H]; [split; reflexivity|]). contradiction. }
    assert (Hd0 : describes (attrs (symbolic_object m)) m).
    { intros a v Hv. unfold symbolic_object. simpl attrs. change (dget (plain_attrs m ++ [("_cached_connectivity_mapping", MConn (m_conn m))]) a = Some v).
      rewrite dget_app, Hv. reflexivity. }
    apply (pickle_spec KS "connectivity_mapping" m (symbolic_object m)); auto.
    - apply ranked_sym.
    - apply clean_sym.
    - intros a body v Hk Hp Hv f Hfr. 
      assert (Ea : a = "connectivity_mapping").
      { apply dget_In in Hv. simpl in Hv. destruct Hv as [H|[H|[H|[H|[H|[H|[H|[H|[]]]]]]]]]; apply (f_equal fst) in H; cbn [fst] in H; try (apply (f_equal (fun s => String.prefix base_str s)) in H; rewrite cache_attr_prefix in H; discriminate H).
        exact (eq_sym (cache_attr_inj "connectivity_mapping" a H)). }
      subst a. simpl in Hv. injection Hv as <-. apply Hpl; [exact Hd0|]. vm_compute in Hfr. lia.
    - intros s Hs f Hf3. apply Hpl; [|lia]. apply (describes_same KS (symbolic_object m) s m Hs Hnm Hd0).
    - simpl. repeat constructor; simpl; intuition discriminate.
  Qed.

  (** Numerical models *)
  Lemma pickle_numerical m : model_ok m ->
    forall fuel h, 3 <= fuel -> Forall (cache_op KN) h ->
      let s := history KN fuel h (numerical_object m) in
      seen_model KN "_connectivity_mapping" fuel s = Ok m /\
      exists s', pickle_roundtrip make_sig s = Ok s' /\ seen_model KN "_connectivity_mapping" fuel s' = Ok m /\
        (forall p, dget (attrs s') (cache_attr p) = None) /\
        (forall a, String.prefix base_str a = false -> fst (getattr KN fuel a s') = fst (getattr KN fuel a s)).
  Proof.
    intros Hok fuel h Hf Hh.
    assert (Hnm : forall a, In a (map fst (plain_attrs m)) -> ordinary KN a).
    { simpl. intros a H. repeat (destruct H as [<-|H]; [split; reflexivity|]). contradiction. }
    assert (Hd0 : describes (attrs (numerical_object m)) m).
    { intros a v Hv. simpl attrs. change (dget (plain_attrs m ++ [("_connectivity_mapping", MConn (m_conn m))]) a = Some v).
      rewrite dget_app, Hv. reflexivity. }
    apply (pickle_spec KN "_connectivity_mapping" m (numerical_object m)); auto.
    - apply ranked_num.
    - apply clean_num.
    - apply no_cache_coherent. intros a. destruct (dget _ _) as [v|] eqn:Ev; [|reflexivity]. exfalso.
      apply dget_In in Ev. simpl in Ev. destruct Ev as [H|[H|[H|[H|[H|[H|[H|[H|[]]]]]]]]]; apply (f_equal fst) in H; cbn [fst] in H; apply (f_equal (fun s => String.prefix base_str s)) in H; rewrite cache_attr_prefix in H; discriminate H.
    - intros s Hs f Hf3. destruct f as [|f]; [lia|]. rewrite plain_ordinary by reflexivity. rewrite Hs by (split; reflexivity). reflexivity.
    - simpl. repeat constructor; simpl; intuition discriminate.
  Qed.
End Facts.
