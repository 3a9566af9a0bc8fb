(** * FitFacts: linking data to variables. *)
From Coq Require Import Reals Lra.
From Verif Require Import PyBase PyFacts Signature SignatureFacts Expr NumPy NumFacts Objective Minimizer Fit FitSpec.
Local Open Scope R_scope.
Local Open Scope string_scope.
Local Open Scope list_scope.

Section Bind.
  Context {V : Type}.
  Implicit Types (s : signature) (args : list V) (kw acc : dict string V).
  Definition names_of s := map sp_name s.
  Definition positional s := forall p, In p s -> sp_kwonly p = false.
  Definition in_order (names : list string) (f : string -> option V) : dict string V :=
    concat (map (fun n => match f n with Some v => [(n, v)] | None => [] end) names).

  Lemma bind_pos_gen s args kw acc : positional s ->
    match bind_pos s args kw acc with
    | Ok (out, rest) => (List.length args <= List.length s)%nat /\ (forall n, In n (firstn (List.length args) (names_of s)) -> ~ In n (dkeys kw)) /\
                        out = acc ++ combine (names_of s) args /\ rest = skipn (List.length args) s
    | Raise e => e = TypeError /\ ~ ((List.length args <= List.length s)%nat /\ (forall n, In n (firstn (List.length args) (names_of s)) -> ~ In n (dkeys kw)))
    end.
  Proof.
    revert s acc; induction args as [|a args IH]; intros s acc Hp; simpl.
    - unfold names_of. rewrite combine_nil, app_nil_r. repeat split; [lia|intros ? []].
    - destruct s as [|p s]; simpl; [split; [reflexivity|lia]|]. rewrite (Hp p (or_introl eq_refl)).
      destruct (dmem kw (sp_name p)) eqn:Hm.
      + split; [reflexivity|]. intros [_ H]. apply (H (sp_name p) (or_introl eq_refl)). apply dmem_keys; exact Hm.
      + apply dmem_false in Hm. specialize (IH s (acc ++ [(sp_name p, a)]) (fun q Hq => Hp q (or_intror Hq))).
        destruct (bind_pos s args kw _) as [[out rest]|e].
        * destruct IH as (Hl & Hn & -> & ->). split; [lia|]. split; [intros n [<-|H]; auto|]. rewrite <- app_assoc. split; reflexivity.
        * destruct IH as (He & H). split; [exact He|]. intros [Hl Hn]. apply H. split; [lia|]. intros n Hn'. apply Hn. right; exact Hn'.
  Qed.
  Lemma bind_kw_gen partial s kw acc :
    match bind_kw partial s kw acc with
    | Ok out => (partial = false -> forall p, In p s -> sp_default p = false -> dget kw (sp_name p) <> None) /\
                out = acc ++ in_order (names_of s) (dget kw)
    | Raise e => e = TypeError /\ ~ (partial = false -> forall p, In p s -> sp_default p = false -> dget kw (sp_name p) <> None)
    end.
  Proof.
    revert acc; induction s as [|p s IH]; intros acc; simpl.
    - rewrite app_nil_r. split; [intros _ ? []|reflexivity].
    - unfold in_order. simpl. fold (in_order (names_of s) (dget kw)). destruct (dget kw (sp_name p)) as [v|] eqn:Hg.
      + specialize (IH (acc ++ [(sp_name p, v)])). destruct (bind_kw partial s kw _) as [out|e].
        * destruct IH as (H1 & ->). split; [intros Hb q [<-|Hq] Hd; [congruence|auto]|]. rewrite <- app_assoc. reflexivity.
        * destruct IH as (He & H). split; [exact He|]. intros H2. apply H. intros Hb q Hq Hd. apply H2; auto.
      + destruct (partial || sp_default p)%bool eqn:Ho.
        * specialize (IH acc). destruct (bind_kw partial s kw acc) as [out|e].
          -- destruct IH as (H1 & ->). split; [|reflexivity]. intros Hb q [<-|Hq] Hd; [rewrite Hb, Hd in Ho; discriminate|auto].
          -- destruct IH as (He & H). split; [exact He|]. intros H2. apply H. intros Hb q Hq Hd. apply H2; auto.
        * apply orb_false_iff in Ho as [Hb Hd]. split; [reflexivity|]. intros H. apply (H Hb p (or_introl eq_refl) Hd Hg).
  Qed.

  Lemma given_split s args kw : NoDup (names_of s) -> (List.length args <= List.length s)%nat ->
    in_order (names_of s) (given (names_of s) args kw) =
    combine (names_of s) args ++ in_order (names_of (skipn (List.length args) s)) (dget kw).
  Proof using.
    unfold names_of. revert args; induction s as [|p s IH]; intros [|a args] Hn Hl; try (simpl in Hl; lia); [reflexivity|reflexivity|].
    simpl in Hn, Hl. inv Hn. cbn [List.length skipn map combine app].
    change (in_order (sp_name p :: map sp_name s) ?f) with (match f (sp_name p) with Some v => [(sp_name p, v)] | None => [] end ++ in_order (map sp_name s) f).
    unfold given at 1. cbn [combine app dget]. destruct (eq_dec (sp_name p) (sp_name p)) as [_|]; [|congruence]. cbn [app]. f_equal.
    rewrite <- (IH args) by (auto; lia). unfold in_order. f_equal. apply map_ext_in. intros n Hin.
    unfold given. cbn [combine app dget]. destruct (eq_dec n (sp_name p)) as [->|]; [contradiction|]. reflexivity.
  Qed.
  Lemma given_kw s args kw n : NoDup (names_of s) -> (List.length args <= List.length s)%nat -> In n (names_of (skipn (List.length args) s)) ->
    given (names_of s) args kw n = dget kw n.
  Proof using.
    unfold names_of, given. revert args; induction s as [|p s IH]; intros [|a args] Hn Hl Hi; try (simpl in Hl; lia); [reflexivity|reflexivity|].
    simpl in Hn, Hl, Hi. inv Hn. cbn [map combine app dget]. destruct (eq_dec n (sp_name p)) as [->|].
    - exfalso. apply H1. clear -Hi. revert args Hi. induction s as [|q s IH]; intros [|a args] H; simpl in *; auto. right. eapply IH; exact H.
    - apply IH; auto; lia.
  Qed.
  Lemma given_pos s args kw n : (List.length args <= List.length s)%nat -> In n (firstn (List.length args) (names_of s)) -> given (names_of s) args kw n <> None.
  Proof using.
    unfold given, names_of. revert args; induction s as [|p s IH]; intros [|a args] Hl Hi; simpl in *; try lia; try contradiction.
    destruct (eq_dec n (sp_name p)) as [|Hne]; [congruence|]. destruct Hi as [Hi|Hi]; [congruence|]. apply IH; [lia|exact Hi].
  Qed.
  Lemma names_split s k n : In n (names_of s) -> In n (firstn k (names_of s)) \/ In n (names_of (skipn k s)).
  Proof using. unfold names_of. rewrite <- (firstn_skipn k s) at 1. rewrite map_app, in_app_iff, firstn_map. tauto. Qed.

  Lemma bind_spec partial s args kw : positional s -> NoDup (names_of s) -> NoDup (dkeys kw) ->
    match sig_bind_gen partial s args kw with
    | Ok b => well_formed (names_of s) args kw /\
              (partial = false -> forall p, In p s -> sp_default p = false -> given (names_of s) args kw (sp_name p) <> None) /\
              b = in_order (names_of s) (given (names_of s) args kw)
    | Raise e => e = TypeError /\
              ~ (well_formed (names_of s) args kw /\
                (partial = false -> forall p, In p s -> sp_default p = false -> given (names_of s) args kw (sp_name p) <> None))
    end.
  Proof using.
    intros Hp Hn Hk. unfold sig_bind_gen. pose proof (bind_pos_gen s args kw [] Hp) as H1.
    destruct (bind_pos s args kw []) as [[acc rest]|e]; cbn [bind].
    2:{ destruct H1 as (-> & H1). split; [reflexivity|]. intros [(Hl & _ & Hd & _) _]. apply H1. split; [|exact Hd].
        unfold names_of in Hl. rewrite map_length in Hl. exact Hl. }
    destruct H1 as (Hl & Hd & -> & ->). pose proof (bind_kw_gen partial (skipn (List.length args) s) kw ([] ++ combine (names_of s) args)) as H2.
    assert (Hreq : (partial = false -> forall p, In p (skipn (List.length args) s) -> sp_default p = false -> dget kw (sp_name p) <> None) <->
                   (partial = false -> forall p, In p s -> sp_default p = false -> given (names_of s) args kw (sp_name p) <> None)).
    { split; intros H Hb p Hin Hdf.
      - destruct (names_split s (List.length args) (sp_name p)) as [Hf|Hs]; [apply in_map; exact Hin|apply given_pos; assumption|].
        rewrite given_kw by assumption. rewrite <- (firstn_skipn (List.length args) s) in Hin. apply in_app_or in Hin as [Hin|Hin]; [|auto].
        exfalso. clear -Hn Hin Hs. unfold names_of in *. rewrite <- (firstn_skipn (List.length args) s), map_app in Hn.
        apply NoDup_app_split in Hn as (_ & _ & Hn). apply (Hn (sp_name p)); [apply in_map; exact Hin|exact Hs].
      - rewrite <- (given_kw s args kw); [|assumption|assumption|unfold names_of; apply in_map; exact Hin]. apply H; auto.
        rewrite <- (firstn_skipn (List.length args) s). apply in_or_app; right; exact Hin. }
    destruct (bind_kw partial (skipn (List.length args) s) kw _) as [out|e]; cbn [bind].
    - destruct H2 as (H2 & ->). destruct (forallb _ (dkeys kw)) eqn:Hf.
      + rewrite forallb_forall in Hf. split; [|split; [apply Hreq; exact H2|cbn [app]; rewrite given_split by assumption; reflexivity]].
        split; [unfold names_of; rewrite map_length; exact Hl|]. split; [exact Hk|]. split; [exact Hd|]. intros n Hin. apply Hf in Hin. apply inb_In in Hin.
        unfold names_of in *. rewrite <- (firstn_skipn (List.length args) s), map_app. apply in_or_app; right; exact Hin.
      + split; [reflexivity|]. intros [(_ & _ & _ & H) _]. apply Bool.not_true_iff_false in Hf. apply Hf. apply forallb_forall. intros n Hin.
        apply inb_In. destruct (names_split s (List.length args) n (H n Hin)) as [H'|H']; [exfalso; apply (Hd n H' Hin)|exact H'].
    - destruct H2 as (-> & H2). split; [reflexivity|]. intros [_ H]. apply H2. apply Hreq. exact H.
  Qed.

  Lemma in_order_get names (f : string -> option V) n : dget (in_order names f) n = if inb n names then f n else None.
  Proof using.
    induction names as [|m names IH]; [reflexivity|]. unfold in_order. simpl. fold (in_order names f). rewrite dget_app, IH.
    unfold inb. simpl. fold (inb n names). unfold eqb. destruct (f m) as [v|] eqn:Hf; simpl; destruct (eq_dec n m) as [->|]; simpl; try rewrite Hf; auto.
    destruct (inb m names); reflexivity.
  Qed.
  Lemma in_order_keys names (f : string -> option V) n : In n (dkeys (in_order names f)) <-> In n names /\ f n <> None.
  Proof using. rewrite <- dget_keys, in_order_get. destruct (inb n names) eqn:Hi; [apply inb_In in Hi|apply inb_false in Hi]; tauto. Qed.
  Lemma in_order_nodup names (f : string -> option V) : NoDup names -> NoDup (dkeys (in_order names f)).
  Proof using.
    induction names as [|m names IH]; [constructor|]. intros Hn. inv Hn. unfold in_order. simpl. fold (in_order names f).
    destruct (f m); simpl; [|auto]. constructor; [|auto]. intros H. apply in_order_keys in H as [H _]. contradiction.
  Qed.
  Lemma in_order_ext names (f g : string -> option V) : (forall n, In n names -> f n = g n) -> in_order names f = in_order names g.
  Proof using. intros H. unfold in_order. f_equal. apply map_ext_in. intros n Hn. rewrite H by exact Hn. reflexivity. Qed.
End Bind.
