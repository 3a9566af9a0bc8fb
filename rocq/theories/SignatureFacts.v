(** * SignatureFacts: what [Signature.bind] does for required parameters. *)
From Verif Require Import PyBase PyFacts Signature.

Section BindFacts.
  Context {V : Type}.
  Implicit Types (args vs : list V) (kw acc : dict string V) (names : list string).

  Definition required (names : list string) : signature := map pos_param names.

  Lemma bind_pos_ok names args kw acc out rest :
    bind_pos (required names) args kw acc = Ok (out, rest) <->
    (List.length args <= List.length names /\
     (forall n, In n (firstn (List.length args) names) -> ~ In n (dkeys kw)) /\
     out = acc ++ combine names args /\ rest = required (skipn (List.length args) names)).
  Proof.
    revert names acc; induction args as [|a args IH]; intros names acc; simpl.
    - split.
      + intros Hq; inv Hq. split; [lia|]. split; [intros ? []|].
        rewrite combine_nil, app_nil_r. split; reflexivity.
      + intros (_ & _ & -> & ->). rewrite combine_nil, app_nil_r. reflexivity.
    - destruct names as [|n names]; simpl.
      + split; [discriminate|]. intros (Hl & _); lia.
      + destruct (dmem kw n) eqn:Hm.
        * split; [discriminate|]. intros (_ & Hn & _). exfalso. apply (Hn n); [left; reflexivity|].
          apply dmem_keys; exact Hm.
        * rewrite IH. apply dmem_false in Hm. split.
          -- intros (Hl & Hn & -> & ->). repeat split; [lia| |].
             ++ intros x [<-|Hx]; [exact Hm|auto].
             ++ rewrite <- app_assoc; reflexivity.
          -- intros (Hl & Hn & -> & ->). repeat split; [lia| |].
             ++ intros x Hx; apply Hn; right; exact Hx.
             ++ rewrite <- app_assoc; reflexivity.
  Qed.

  Lemma bind_pos_err names args kw acc e :
    bind_pos (required names) args kw acc = Raise e -> e = TypeError.
  Proof.
    revert names acc; induction args as [|a args IH]; intros names acc; simpl; [discriminate|].
    destruct names as [|n names]; simpl; [congruence|]. destruct (dmem kw n); [congruence|]. apply IH.
  Qed.

  Lemma bind_kw_ok names kw acc out :
    bind_kw false (required names) kw acc = Ok out <->
    exists vs, out = acc ++ combine names vs /\ Forall2 (fun n v => dget kw n = Some v) names vs.
  Proof.
    revert acc; induction names as [|n names IH]; intros acc; simpl.
    - split.
      + intros Hq; inv Hq. exists []; split; [rewrite app_nil_r; reflexivity|constructor].
      + intros (vs & -> & Hf). inv Hf. rewrite app_nil_r; reflexivity.
    - destruct (dget kw n) as [v|] eqn:Hg.
      + rewrite IH. split.
        * intros (vs & -> & Hf). exists (v :: vs). split; [rewrite <- app_assoc; reflexivity|constructor; auto].
        * intros (vs & -> & Hf). inv Hf. rewrite Hg in H1; inv H1. exists l'. split; [rewrite <- app_assoc; reflexivity|auto].
      + split; [discriminate|]. intros (vs & _ & Hf). inv Hf. congruence.
  Qed.

  Lemma bind_kw_err names kw acc e : bind_kw false (required names) kw acc = Raise e -> e = TypeError.
  Proof.
    revert acc; induction names as [|n names IH]; intros acc; simpl; [discriminate|].
    destruct (dget kw n); [apply IH|congruence].
  Qed.

  Lemma sp_name_required names : map sp_name (required names) = names.
  Proof. unfold required. rewrite map_map. simpl. apply map_id. Qed.

  Lemma sig_bind_total names args kw :
    (exists b, sig_bind (required names) args kw = Ok b) \/ sig_bind (required names) args kw = Raise TypeError.
  Proof.
    unfold sig_bind, sig_bind_gen. destruct (bind_pos _ _ _ _) as [[acc rest]|e] eqn:Hp; simpl.
    - apply bind_pos_ok in Hp as (_ & _ & _ & ->).
      destruct (bind_kw _ _ _ _) as [out|e] eqn:Hk; simpl.
      + destruct (forallb _ _); eauto.
      + apply bind_kw_err in Hk; subst; auto.
    - apply bind_pos_err in Hp; subst; auto.
  Qed.

  Lemma combine_nth_pairs names vs : List.length names = List.length vs ->
    forall n v, NoDup names -> In (n, v) (combine names vs) -> dget (combine names vs) n = Some v.
  Proof. intros Hl n v Hnd Hin. apply In_dget; [rewrite dkeys_combine by exact Hl; exact Hnd|exact Hin]. Qed.

  Lemma skipn_combine {X Y} k (l : list X) (m : list Y) : skipn k (combine l m) = combine (skipn k l) (skipn k m).
  Proof.
    revert l m; induction k as [|k IH]; intros l m; simpl; [reflexivity|].
    destruct l, m; simpl; auto. rewrite combine_nil; reflexivity.
  Qed.

  Lemma combine_app {X Y} (l1 l2 : list X) (m1 m2 : list Y) : List.length l1 = List.length m1 ->
    combine (l1 ++ l2) (m1 ++ m2) = combine l1 m1 ++ combine l2 m2.
  Proof.
    revert m1; induction l1 as [|x l1 IH]; intros [|y m1] Hl; simpl in *; try discriminate; [reflexivity|].
    rewrite IH by lia; reflexivity.
  Qed.

  Lemma combine_short {X Y} (l : list X) (m : list Y) : combine l m = combine (firstn (List.length m) l) m.
  Proof.
    revert l; induction m as [|y m IH]; intros [|x l]; simpl; try reflexivity. rewrite <- IH; reflexivity.
  Qed.

  Lemma Forall2_dget_combine kw names vs : NoDup names -> List.length names = List.length vs ->
    Permutation kw (combine names vs) -> Forall2 (fun n v => dget kw n = Some v) names vs.
  Proof.
    intros Hnd Hl Hp.
    assert (Hg : forall n, dget kw n = dget (combine names vs) n).
    { intros n. symmetry. apply dget_perm; [rewrite dkeys_combine by exact Hl; exact Hnd|symmetry; exact Hp]. }
    assert (Hall : forall i n v, nth_error names i = Some n -> nth_error vs i = Some v -> dget kw n = Some v).
    { intros i n v Hi Hv. rewrite Hg. eapply dget_combine_nth; eauto. }
    clear Hg Hp Hnd. revert vs Hl Hall; induction names as [|n names IH]; intros [|v vs] Hl Hall; try discriminate; constructor.
    - apply (Hall 0); reflexivity.
    - apply IH; [simpl in Hl; lia|]. intros i; apply (Hall (S i)).
  Qed.

  (** Complete characterisation of [bind] for required parameters: it succeeds
      exactly when the arguments are a split of one assignment of values to all names
      into leading positionals and keywords in any order. *)
  Lemma sig_bind_iff names args kw b : NoDup names -> NoDup (dkeys kw) ->
    sig_bind (required names) args kw = Ok b <->
    exists vs, List.length vs = List.length names /\ b = combine names vs /\
      args = firstn (List.length args) vs /\
      Permutation kw (skipn (List.length args) (combine names vs)).
  Proof.
    intros Hnd Hkw. unfold sig_bind, sig_bind_gen. split.
    - intros Hb. apply bind_Ok in Hb as ([acc rest] & Hp & Hb). apply bind_pos_ok in Hp as (Hl & Hn & -> & ->).
      apply bind_Ok in Hb as (out & Hk & Hb). apply bind_kw_ok in Hk as (vs & -> & Hf).
      rewrite sp_name_required in Hb. destruct (forallb _ _) eqn:Hall; [|discriminate]. inv Hb.
      rewrite forallb_forall in Hall.
      assert (Hlv : List.length (skipn (List.length args) names) = List.length vs) by (eapply Forall2_len; exact Hf).
      assert (Hsp : names = firstn (List.length args) names ++ skipn (List.length args) names) by (symmetry; apply firstn_skipn).
      assert (Hlf : List.length (firstn (List.length args) names) = List.length args) by (apply firstn_length_le; exact Hl).
      exists (args ++ vs).
      assert (Hcomb : combine names (args ++ vs) = combine names args ++ combine (skipn (List.length args) names) vs).
      { rewrite Hsp at 1. rewrite combine_app by exact Hlf. rewrite <- combine_short. reflexivity. }
      repeat split.
      + rewrite app_length, <- Hlv, skipn_length. lia.
      + rewrite Hcomb. reflexivity.
      + rewrite firstn_app, firstn_all. replace (List.length args - List.length args) with 0 by lia.
        simpl. rewrite app_nil_r. reflexivity.
      + rewrite Hcomb. rewrite skipn_app.
        assert (Hc : List.length (combine names args) = List.length args) by (rewrite combine_length; lia).
        rewrite skipn_all2 by lia. replace (List.length args - List.length (combine names args)) with 0 by lia.
        simpl. apply NoDup_Permutation.
        * eapply NoDup_map_inv; exact Hkw.
        * apply (NoDup_map_inv fst). fold (dkeys (combine (skipn (List.length args) names) vs)).
          rewrite dkeys_combine by exact Hlv. clear -Hnd.
          rewrite <- (firstn_skipn (List.length args) names) in Hnd.
          induction (firstn (List.length args) names); [exact Hnd|]. simpl in Hnd; inv Hnd; auto.
        * intros [n v]. split.
          -- intros Hin.
             assert (Hk : In n (skipn (List.length args) names)).
             { apply inb_In. apply Hall. change n with (fst (n, v)). apply in_map; exact Hin. }
             apply (In_dget kw n v Hkw) in Hin.
             clear -Hf Hk Hin. induction Hf as [|n' v' ns vs' Hg Hf IH]; [contradiction|].
             simpl. destruct Hk as [->|Hk]; [left; congruence|right; auto].
          -- intros Hin. apply dget_In. clear -Hf Hin.
             induction Hf as [|n' v' ns vs' Hg Hf IH]; [contradiction|]. destruct Hin as [He|Hin]; [inv He; exact Hg|auto].
    - intros (vs & Hl & -> & Ha & Hp).
      assert (Hla : List.length args <= List.length names).
      { assert (Hle : List.length (firstn (List.length args) vs) <= List.length vs) by (rewrite firstn_length; lia).
        rewrite <- Ha in Hle. lia. }
      assert (Hkeys : Permutation (dkeys kw) (skipn (List.length args) names)).
      { rewrite skipn_combine in Hp. apply (Permutation_map fst) in Hp. fold (dkeys kw) in Hp.
        fold (dkeys (combine (skipn (List.length args) names) (skipn (List.length args) vs))) in Hp.
        rewrite dkeys_combine in Hp by (rewrite !skipn_length; lia). exact Hp. }
      assert (Hpos : bind_pos (required names) args kw [] = Ok (combine names args, required (skipn (List.length args) names))).
      { apply bind_pos_ok. repeat split; [exact Hla|]. intros n Hn Hk.
        apply (Permutation_in _ Hkeys) in Hk. rewrite <- (firstn_skipn (List.length args) names) in Hnd.
        clear -Hnd Hn Hk. induction (firstn (List.length args) names) as [|x l IH]; [contradiction|].
        simpl in Hnd; inv Hnd. destruct Hn as [->|Hn]; [apply H1, in_or_app; auto|auto]. }
      rewrite Hpos. cbn [bind].
      assert (Hkw2 : bind_kw false (required (skipn (List.length args) names)) kw (combine names args) = Ok (combine names vs)).
      { apply bind_kw_ok. exists (skipn (List.length args) vs). split.
        - rewrite <- (firstn_skipn (List.length args) names) at 1. rewrite <- (firstn_skipn (List.length args) vs) at 1.
          rewrite combine_app by (rewrite !firstn_length; lia). f_equal.
          rewrite <- Ha. symmetry. apply combine_short.
        - apply Forall2_dget_combine.
          + clear -Hnd. rewrite <- (firstn_skipn (List.length args) names) in Hnd.
            induction (firstn (List.length args) names); [exact Hnd|]. simpl in Hnd; inv Hnd; auto.
          + rewrite !skipn_length. lia.
          + rewrite skipn_combine in Hp. exact Hp. }
      rewrite Hkw2. cbn [bind]. rewrite sp_name_required.
      replace (forallb _ _) with true; [reflexivity|]. symmetry. apply forallb_forall. intros n Hn.
      apply inb_In. eapply Permutation_in; [exact Hkeys|exact Hn].
  Qed.

  Lemma nodupb_iff {B} `{EqDec B} (l : list B) : nodupb l = true <-> NoDup l.
  Proof.
    induction l as [|x l IH]; simpl; [split; [constructor|reflexivity]|].
    rewrite andb_true_iff, negb_true_iff, inb_false, IH. split.
    - intros [H1 H2]; constructor; assumption.
    - intros Hnd; inv Hnd; auto.
  Qed.
  Lemma kinds_ok_required names : kinds_ok false false (required names) = true.
  Proof. induction names as [|n names IH]; simpl; [reflexivity|exact IH]. Qed.
  Lemma mk_signature_required names :
    mk_signature (required names) = if nodupb names then Ok (required names) else Raise ValueError.
  Proof. unfold mk_signature. rewrite kinds_ok_required, sp_name_required. reflexivity. Qed.
End BindFacts.
