(** * Decide: the hypotheses of the model theorems are decidable, for the examples. *)
From Verif Require Import PyBase PyFacts Signature SignatureFacts Expr Model ModelSpec ModelFacts.

Definition mentionsl (e : expr) : list sym := occs e ++ map free_of (occs e).
Lemma mentionsl_ok e s : mentions e s <-> In s (mentionsl e).
Proof.
  unfold mentions, mentionsl. rewrite in_app_iff, in_map_iff. split.
  - intros [Hs|(y & ps & Hs & ->)]; [left; exact Hs|right; exists (SDer y ps); auto].
  - intros [Hs|(t & <- & Ht)]; [left; exact Hs|]. destruct t as [n|n|y ps]; simpl; [left; exact Ht|left; exact Ht|].
    right. exists y, ps; auto.
Qed.

Section Decide.
  Context {V : Type}.
  Notation comp := (comp (V:=V)).
  Definition comp_mentions (c : comp) : list sym := match c with CExpr e => mentionsl e | CFun _ _ => [] end.
  Lemma refers_list (items : dict sym comp) k s : refers items k s <-> exists c, In (k, c) items /\ In s (comp_mentions c).
  Proof.
    split.
    - intros (e & Hin & Hm). exists (CExpr e). split; [exact Hin|]. apply mentionsl_ok; exact Hm.
    - intros ([e|id f] & Hin & Hm); [|contradiction]. exists e. split; [exact Hin|]. apply mentionsl_ok; exact Hm.
  Qed.
  Definition symbols_list (items : dict sym comp) : list sym := dkeys items ++ flat_map (fun kc => comp_mentions (snd kc)) items.
  Lemma symbols_list_ok (items : dict sym comp) s : symbol_of items s <-> In s (symbols_list items).
  Proof.
    unfold symbol_of, symbols_list. rewrite in_app_iff, in_flat_map. split; (intros [Hk|H]; [left; exact Hk|right]).
    - destruct H as (k & Hr). apply refers_list in Hr as (c & Hin & Hs). exists (k, c); auto.
    - destruct H as ([k c] & Hin & Hs). exists k. apply refers_list. exists c; auto.
  Qed.

  Lemma is_dict_dec (items : dict sym comp) : nodupb (dkeys items) = true -> is_dict items.
  Proof. apply nodupb_iff. Qed.
  Lemma distinct_names_dec (items : dict sym comp) : nodupb (map sname (dedup (symbols_list items))) = true -> distinct_names items.
  Proof.
    intros Hn s t Hs Ht He. apply nodupb_iff in Hn. apply symbols_list_ok, in_dedup in Hs. apply symbols_list_ok, in_dedup in Ht.
    revert Hn Hs Ht. generalize (dedup (symbols_list items)). intros l. induction l as [|x l IH]; simpl; intros Hn Hs Ht; [contradiction|].
    inversion Hn as [|? ? Hn1 Hn2]; subst. destruct Hs as [<-|Hs], Ht as [<-|Ht]; auto.
    - exfalso. apply Hn1. rewrite He. apply in_map; exact Ht.
    - exfalso. apply Hn1. rewrite <- He. apply in_map; exact Hs.
  Qed.
  Lemma no_self_dec (items : dict sym comp) : forallb (fun kc => negb (inb (fst kc) (comp_mentions (snd kc)))) items = true -> no_self_reference items.
  Proof.
    intros Hf k Hr. rewrite forallb_forall in Hf. apply refers_list in Hr as (c & Hin & Hs). specialize (Hf (k, c) Hin). simpl in Hf.
    apply negb_true_iff, inb_false in Hf. contradiction.
  Qed.
  Lemma keys_nonpar_dec (items : dict sym comp) : forallb (fun k => negb (is_par k)) (dkeys items) = true ->
    forall k, In k (dkeys items) -> is_par k = false.
  Proof. intros Hf k Hk. rewrite forallb_forall in Hf. apply negb_true_iff, Hf; exact Hk. Qed.
  Lemma unused_dec (items : dict sym comp) s : forallb (fun kc => negb (inb s (comp_mentions (snd kc)))) items = true -> forall k, ~ refers items k s.
  Proof.
    intros Hf k Hr. rewrite forallb_forall in Hf. apply refers_list in Hr as (c & Hin & Hs). specialize (Hf (k, c) Hin). simpl in Hf.
    apply negb_true_iff, inb_false in Hf. contradiction.
  Qed.
  Lemma not_symbol_dec (items : dict sym comp) s : inb s (symbols_list items) = false -> ~ symbol_of items s.
  Proof. intros Hf Hs. apply symbols_list_ok in Hs. apply inb_false in Hf. contradiction. Qed.
End Decide.
Lemma not_mentions_dec e s : inb s (mentionsl e) = false -> ~ mentions e s.
Proof. intros Hf Hs. apply mentionsl_ok in Hs. apply inb_false in Hf. contradiction. Qed.

Ltac decide_model :=
  first [ apply is_dict_dec; vm_compute; reflexivity
        | apply distinct_names_dec; vm_compute; reflexivity
        | apply no_self_dec; vm_compute; reflexivity
        | apply keys_nonpar_dec; vm_compute; reflexivity
        | apply unused_dec; vm_compute; reflexivity
        | apply not_symbol_dec; vm_compute; reflexivity
        | apply not_mentions_dec; vm_compute; reflexivity ].
