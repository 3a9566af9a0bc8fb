(** * ReportFacts: the lines of the printed report. *)
From Coq Require Import Reals Lra Lia Ascii.
From Verif Require Import PyBase PyFacts Expr NumPy NumFacts Model Objective ObjSpec Minimizer MinSpec MinFacts MinLemmas ObjFacts Fit FitSpec Results Report ReportSpec.
Local Open Scope R_scope.
Local Open Scope string_scope.
Local Open Scope list_scope.

Lemma sapp_assoc (a b c : string) : ((a ++ b) ++ c = a ++ (b ++ c))%string.
Proof. induction a as [|x a IH]; [reflexivity|]. cbn [append]. rewrite IH. reflexivity. Qed.
Lemma sapp_nil (a : string) : (a ++ "" = a)%string.
Proof. induction a as [|x a IH]; [reflexivity|]. cbn [append]. rewrite IH. reflexivity. Qed.
Lemma lines_ne s : lines s <> [].
Proof. destruct s as [|c s]; [discriminate|]. cbn [lines]. destruct (Ascii.eqb c _); [discriminate|]. destruct (lines s); discriminate. Qed.

(** no line break in [a] *)
Fixpoint flat (a : string) : Prop := match a with "" => True | String c a' => Ascii.eqb c (ascii_of_nat 10) = false /\ flat a' end.
Lemma one_line_flat a : one_line a <-> flat a.
Proof.
  unfold one_line. induction a as [|c a IH]; [split; [intros _; exact I|reflexivity]|]. cbn [lines flat].
  destruct (Ascii.eqb c (ascii_of_nat 10)) eqn:E.
  - split; [|intros [H _]; discriminate]. intros H. exfalso. injection H as H1 H2. discriminate.
  - destruct (lines a) as [|l ls] eqn:El; [exfalso; exact (lines_ne a El)|]. split.
    + intros H. injection H as H1 H2. subst. split; [reflexivity|]. apply IH. reflexivity.
    + intros [_ H]. apply IH in H. injection H as -> ->. reflexivity.
Qed.
Lemma flat_app a b : flat a -> flat b -> flat (a ++ b).
Proof. induction a as [|c a IH]; intros Ha Hb; [exact Hb|]. cbn [append flat] in *. split; [apply Ha|]. apply IH; [apply Ha|exact Hb]. Qed.
Lemma flat_blanks n : flat (blanks n).
Proof. induction n as [|n IH]; [exact I|]. split; [reflexivity|exact IH]. Qed.
Lemma flat_pad n s : flat s -> flat (pad n s).
Proof. intros H. apply flat_app; [exact H|apply flat_blanks]. Qed.
Lemma one_line_app a b : one_line a -> one_line b -> one_line (a ++ b).
Proof. rewrite !one_line_flat. apply flat_app. Qed.

Lemma lines_cut a b : one_line a -> lines (a ++ nl ++ b) = a :: lines b.
Proof.
  intros H. apply one_line_flat in H. induction a as [|c a IH]; [reflexivity|]. destruct H as [Hc Ha]. cbn [append lines]. rewrite Hc.
  change (match lines (a ++ nl ++ b) with [] => [String c ""] | l :: ls => String c l :: ls end = String c a :: lines b). rewrite (IH Ha). reflexivity.
Qed.
Lemma lines_rows l b : Forall one_line l -> lines (cat (map (fun r => r ++ nl)%string l) ++ b) = l ++ lines b.
Proof.
  induction 1 as [|r l Hr Hl IH]; [reflexivity|]. cbn [map cat fold_right]. change (fold_right append "" (map (fun r => r ++ nl)%string l)) with (cat (map (fun r => r ++ nl)%string l)).
  rewrite !sapp_assoc. rewrite lines_cut by exact Hr. rewrite IH. reflexivity.
Qed.
Lemma lines_join l b : l <> [] -> Forall one_line l -> (b = "" \/ exists b', b = (nl ++ b')%string) -> lines (join nl l ++ b) = l ++ match b with "" => [] | String _ b' => lines b' end.
Proof.
  intros Hne H Hb. induction H as [|r l Hr Hl IH]; [congruence|]. destruct l as [|r' l].
  - cbn [join app]. destruct Hb as [->|(b' & ->)]; [rewrite sapp_nil; exact Hr|]. rewrite lines_cut by exact Hr. reflexivity.
  - change (join nl (r :: r' :: l)) with (r ++ nl ++ join nl (r' :: l))%string. rewrite !sapp_assoc, lines_cut by exact Hr. rewrite IH by discriminate. reflexivity.
Qed.
Lemma lines_cons l b : Forall (fun qa => one_line (fst qa) /\ one_line (snd qa)) l ->
  lines (cat (map (fun qa => fst qa ++ nl ++ snd qa ++ nl ++ nl)%string l) ++ b) = concat (map (fun qa => [fst qa; snd qa; ""]) l) ++ lines b.
Proof.
  induction 1 as [|[q a] l [Hq Ha] Hl IH]; [reflexivity|]. cbn [map cat fold_right concat fst snd app] in *.
  rewrite !sapp_assoc. rewrite lines_cut by exact Hq. rewrite lines_cut by exact Ha. match goal with |- context [lines (append nl ?x)] => change (lines (append nl x)) with (lines (append "" (append nl x))) end.
  rewrite lines_cut by reflexivity. unfold cat in IH. rewrite IH. reflexivity.
Qed.

Lemma one_line_nat n : one_line (string_of_nat n).
Proof.
  apply one_line_flat. unfold string_of_nat, DecimalString.NilZero.string_of_uint.
  assert (H : forall u, flat (DecimalString.NilEmpty.string_of_uint u)) by (induction u; cbn; auto).
  destruct (Nat.to_uint n) eqn:E; [cbn; auto| | | | | | | | | |]; apply H.
Qed.

(** the whole text, when the parts are known *)
Lemma report_text rows status it objective minimizer gofs qas :
  Forall one_line rows -> one_line status -> one_line it -> one_line objective -> one_line minimizer -> gofs <> [] -> Forall one_line gofs ->
  Forall (fun qa => one_line (fst qa) /\ one_line (snd qa)) qas ->
  lines (nl ++ "Parameter Value        Standard Deviation" ++ nl ++ cat (map (fun r => r ++ nl)%string rows) ++
      label "Status message" status ++ nl ++ label "Number of iterations" it ++ nl ++ label "Objective" objective ++ nl ++ label "Minimizer" minimizer ++ nl ++
      nl ++ "Goodness of fit qualifiers:" ++ nl ++ join nl gofs ++
      match qas with
      | [] => ""
      | _ => nl ++ nl ++ "Constraints:" ++ nl ++ "--------------------" ++ nl ++ cat (map (fun qa => fst qa ++ nl ++ snd qa ++ nl ++ nl)%string qas)
      end)%string = report_lines rows status it objective minimizer gofs qas.
Proof.
  intros Hr Hs Hi Ho Hm Hgn Hg Hq. unfold report_lines.
  assert (L : forall n s, one_line n -> one_line s -> one_line (label n s)).
  { intros n s Hn Hs'. apply one_line_flat. apply flat_app; [apply flat_pad; apply one_line_flat; exact Hn|]. apply (flat_app " "); [split; [reflexivity|exact I]|apply one_line_flat; exact Hs']. }
  match goal with |- lines (append nl ?x) = _ => change (lines (append nl x)) with (lines (append "" (append nl x))) end. rewrite lines_cut by reflexivity. cbn [app]. f_equal.
  rewrite lines_cut by reflexivity. f_equal. rewrite lines_rows by exact Hr. f_equal.
  rewrite lines_cut by (apply L; [reflexivity|exact Hs]). rewrite lines_cut by (apply L; [reflexivity|exact Hi]). rewrite lines_cut by (apply L; [reflexivity|exact Ho]).
  rewrite lines_cut by (apply L; [reflexivity|exact Hm]).
  f_equal. f_equal. f_equal. f_equal.
  match goal with |- lines (append nl ?x) = _ => change (lines (append nl x)) with (lines (append "" (append nl x))) end. rewrite lines_cut by reflexivity. f_equal. rewrite lines_cut by reflexivity. f_equal.
  destruct qas as [|qa qas].
  - rewrite lines_join by (auto). rewrite app_nil_r. reflexivity.
  - rewrite lines_join; [|exact Hgn|exact Hg|right; eexists; reflexivity]. f_equal. set (l := qa :: qas) in *. cbn [nl append].
    change (lines (nl ++ "Constraints:" ++ nl ++ "--------------------" ++ nl ++ cat (map (fun qa => fst qa ++ nl ++ snd qa ++ nl ++ nl)%string l))%string = ["" ; "Constraints:"; "--------------------"] ++ concat (map (fun qa => [fst qa; snd qa; ""]) l) ++ [""]).
    match goal with |- lines (append nl ?x) = _ => change (lines (append nl x)) with (lines (append "" (append nl x))) end. rewrite lines_cut by reflexivity. rewrite lines_cut by reflexivity. rewrite lines_cut by reflexivity. cbn [app]. f_equal. f_equal. f_equal.
    rewrite <- (sapp_nil (cat _)). rewrite lines_cons by exact Hq. reflexivity.
Qed.

(** ** the parts *)
Lemma row_value ps popt k p v cov pr : NoDup (map sname ps) -> nth_error ps k = Some p -> nth_error popt k = Some v ->
  (forall c, cov = Some c -> square (List.length ps) c) ->
  param_row pr ps (result_params ps popt) cov p = Ok (row_for pr (sname p) v (option_map (fun c => mat c k k) cov) ++ nl)%string.
Proof.
  intros Hn Hk Hv Hc. unfold param_row, value. unfold dlook. rewrite (result_lookup ps popt k p v Hn Hk Hv). cbn [of_opt bind].
  unfold stdev_text, stdev. unfold variance.
  assert (Hi : param_index ps p = Ok k).
  { clear -Hn Hk. apply NoDup_map_of in Hn. revert k Hk. induction ps as [|q ps IH]; intros [|k] Hk; try discriminate; cbn [nth_error] in Hk.
    - injection Hk as ->. cbn [param_index]. destruct (eq_dec p p); [reflexivity|congruence].
    - inversion Hn as [|x l Hx Hl]; subst. cbn [param_index]. destruct (eq_dec q p) as [->|_]; [exfalso; apply Hx; eapply nth_error_In; exact Hk|]. rewrite (IH Hl k Hk). reflexivity. }
  rewrite Hi. cbn [bind]. destruct cov as [c|]; [|unfold row_for; cbn [bind option_map]; rewrite !sapp_assoc; reflexivity].
  specialize (Hc c eq_refl). unfold square in Hc. unfold index2. rewrite Hc.
  assert (Hlt : (k < List.length ps)%nat) by (apply nth_error_Some; congruence). rewrite (proj2 (Nat.ltb_lt _ _) Hlt). cbn [andb bind option_map]. unfold row_for, mat. rewrite !sapp_assoc. reflexivity.
Qed.
Lemma rows_values ps popt cov pr : NoDup (map sname ps) -> List.length popt = List.length ps -> (forall c, cov = Some c -> square (List.length ps) c) ->
  exists rows, mapM (param_row pr ps (result_params ps popt) cov) ps = Ok (map (fun r => r ++ nl)%string rows) /\ List.length rows = List.length ps /\
    forall k p v, nth_error ps k = Some p -> nth_error popt k = Some v -> nth_error rows k = Some (row_for pr (sname p) v (option_map (fun c => mat c k k) cov)).
Proof.
  intros Hn Hl Hc.
  exists (map (fun k => row_for pr (nth k (map sname ps) "") (nth k popt 0) (option_map (fun c => mat c k k) cov)) (seq 0 (List.length ps))).
  assert (Hrow : forall k p v, nth_error ps k = Some p -> nth_error popt k = Some v -> row_for pr (nth k (map sname ps) "") (nth k popt 0) (option_map (fun c => mat c k k) cov) = row_for pr (sname p) v (option_map (fun c => mat c k k) cov)).
  { intros k p v Hk Hv. rewrite (nth_error_nth _ _ _ (map_nth_error sname k ps Hk)), (nth_error_nth _ _ _ Hv). reflexivity. }
  split; [|split].
  - apply mapM_Ok. rewrite map_map.
    assert (G : forall n l, (forall i p, nth_error l i = Some p -> nth_error ps (n + i) = Some p) ->
      Forall2 (fun p b => param_row pr ps (result_params ps popt) cov p = Ok b) l
        (map (fun x => (row_for pr (nth x (map sname ps) "") (nth x popt 0) (option_map (fun c => mat c x x) cov) ++ nl)%string) (seq n (List.length l)))).
    { intros n l. revert n. induction l as [|p l IH]; intros n H; [constructor|]. cbn [List.length seq map]. constructor.
      - pose proof (H 0%nat p eq_refl) as H0. rewrite Nat.add_0_r in H0.
        assert (Hlt : (n < List.length popt)%nat) by (rewrite Hl; apply nth_error_Some; congruence). destruct (nth_error popt n) as [v|] eqn:Ev; [|apply nth_error_None in Ev; lia].
        rewrite (row_value ps popt n p v cov pr Hn H0 Ev Hc), (Hrow n p v H0 Ev). reflexivity.
      - apply IH. intros i q Hq. rewrite Nat.add_succ_l, <- Nat.add_succ_r. apply H. exact Hq. }
    exact (G 0%nat ps (fun i p H => H)).
  - rewrite map_length, seq_length. reflexivity.
  - intros k p v Hk Hv. assert (Hlt : (k < List.length ps)%nat) by (apply nth_error_Some; congruence).
    erewrite map_nth_error; [|rewrite (nth_error_nth' _ 0%nat) by (rewrite seq_length; exact Hlt); rewrite seq_nth by exact Hlt; reflexivity].
    cbn [plus]. rewrite (Hrow k p v Hk Hv). reflexivity.
Qed.
Lemma one_line_row pr n v c : plain_printer pr -> one_line n -> one_line (row_for pr n v c).
Proof.
  intros (He & _) Hn. apply one_line_flat. apply flat_app; [apply flat_pad, one_line_flat; exact Hn|]. apply flat_app; [apply one_line_flat, He|]. apply (flat_app " "); [split; [reflexivity|exact I]|].
  destruct c as [c|]; [|cbn; auto 20]. destruct (Rlt_dec c 0); [cbn; auto 20|apply one_line_flat, He].
Qed.

(** ** the report, given the constraints *)
Lemma report_printed pr status nit objective minimizer ps popt r cons qas :
  plain_printer pr -> one_line status -> one_line objective -> one_line minimizer -> (forall p, In p ps -> one_line (sname p)) ->
  NoDup (map sname ps) -> List.length popt = List.length ps -> rp_params r = result_params ps popt -> (forall c, rp_cov r = Some c -> square (List.length ps) c) ->
  rp_gof r <> [] -> (forall k v, In (k, v) (rp_gof r) -> one_line k /\ one_line (pr_nd pr v)) ->
  Forall2 (fun c qa => con_text pr (rp_params r) c = Ok (fst qa ++ nl ++ snd qa ++ nl ++ nl)%string /\ one_line (fst qa) /\ one_line (snd qa)) cons qas ->
  exists s rows, str_results pr status nit objective minimizer ps r cons = Ok s /\
    lines s = report_lines rows status (match nit with Some n => string_of_nat n | None => "None" end) objective minimizer
                (map (fun kv => pad 22 (fst kv) ++ " " ++ pr_nd pr (snd kv))%string (sort_by fst (rp_gof r))) qas /\
    List.length rows = List.length ps /\
    forall k p v, nth_error ps k = Some p -> nth_error popt k = Some v -> nth_error rows k = Some (row_for pr (sname p) v (option_map (fun c => mat c k k) (rp_cov r))).
Proof.
  intros Hpr Hs Ho Hm Hpn Hn Hl Hr Hc Hg0 Hg1 HF. destruct (rows_values ps popt (rp_cov r) pr Hn Hl Hc) as (rows & Hrows & Hlen & Hrow).
  unfold str_results. rewrite Hr, Hrows. cbn [bind].
  assert (Hcs : mapM (con_text pr (result_params ps popt)) cons = Ok (map (fun qa => fst qa ++ nl ++ snd qa ++ nl ++ nl)%string qas)).
  { rewrite <- Hr. apply mapM_Ok. clear -HF. induction HF as [|c qa cons qas (H & _) _ IH]; [constructor|]. constructor; assumption. }
  rewrite Hcs. cbn [bind]. eexists. exists rows. split; [reflexivity|]. split; [|split; [exact Hlen|exact Hrow]].
  assert (Hone : Forall one_line rows).
  { apply Forall_forall. intros x Hx. apply In_nth_error in Hx as (k & Hk). assert (Hlt : (k < List.length ps)%nat) by (rewrite <- Hlen; apply nth_error_Some; congruence).
    destruct (nth_error ps k) as [p|] eqn:Ep; [|apply nth_error_None in Ep; lia]. destruct (nth_error popt k) as [v|] eqn:Ev; [|apply nth_error_None in Ev; lia].
    rewrite (Hrow k p v Ep Ev) in Hk. injection Hk as <-. apply one_line_row; [exact Hpr|]. apply Hpn. eapply nth_error_In. exact Ep. }
  assert (Hgl : Forall one_line (map (fun kv => pad 22 (fst kv) ++ " " ++ pr_nd pr (snd kv))%string (sort_by fst (rp_gof r)))).
  { apply Forall_forall. intros x Hx. apply in_map_iff in Hx as ([k v] & <- & Hin). apply (Permutation.Permutation_in _ (Permutation.Permutation_sym (sort_by_perm fst (rp_gof r)))) in Hin. destruct (Hg1 k v Hin) as [Hk Hv]. cbn [fst snd].
    apply one_line_flat. apply flat_app; [apply flat_pad, one_line_flat; exact Hk|]. apply (flat_app " "); [split; [reflexivity|exact I]|apply one_line_flat; exact Hv]. }
  assert (Hgne : map (fun kv => pad 22 (fst kv) ++ " " ++ pr_nd pr (snd kv))%string (sort_by fst (rp_gof r)) <> []).
  { pose proof (Permutation.Permutation_length (sort_by_perm fst (rp_gof r))) as E. destruct (rp_gof r) as [|g l]; [congruence|]. destruct (sort_by fst (g :: l)); [discriminate|]. discriminate. }
  assert (Hit : one_line (match nit with Some n => string_of_nat n | None => "None" end)) by (destruct nit; [apply one_line_nat|reflexivity]).
  assert (Hqa : Forall (fun qa => one_line (fst qa) /\ one_line (snd qa)) qas) by (clear -HF; induction HF as [|c qa cons qas (_ & H) _ IH]; constructor; assumption).
  rewrite <- (report_text rows status _ objective minimizer _ qas Hone Hs Hit Ho Hm Hgne Hgl Hqa).
  destruct HF; reflexivity.
Qed.
