(** Proofs for C125. *)
From Coq Require Import List Arith Lia Bool.
From Verif Require Import SafeIdModel SafeIdSpec.
Import ListNotations.

Section Proofs.
  Context {V : Type}.
  Variable husk : V -> V.
  Variable c : class.

  Lemma put_length i (o : object V) l : length (put i o l) = length l.
  Proof.
    unfold put. rewrite app_length, firstn_length.
    pose proof (skipn_length i l) as H. destruct (skipn i l) as [|a r]; cbn in *; lia.
  Qed.

  Lemma put_app_left i (o : object V) l m : i < length l -> put i o (l ++ m) = put i o l ++ m.
  Proof.
    intros Hi. unfold put. rewrite firstn_app, skipn_app.
    replace (i - length l) with 0 by lia. cbn [firstn skipn]. rewrite app_nil_r.
    pose proof (skipn_length i l) as H. destruct (skipn i l) as [|a r]; cbn in *; [lia|].
    rewrite <- app_assoc. reflexivity.
  Qed.

  Lemma put_app_right i (o : object V) l m : length l <= i -> put i o (l ++ m) = l ++ put (i - length l) o m.
  Proof.
    intros Hi. unfold put. rewrite firstn_app, skipn_app, firstn_all2, skipn_all2 by lia.
    cbn [app]. rewrite app_assoc. reflexivity.
  Qed.

  Lemma put_nth i j (o : object V) l : i < length l ->
    nth_error (put i o l) j = if Nat.eqb i j then Some o else nth_error l j.
  Proof.
    revert i j; induction l as [|a l IH]; intros i j Hi; cbn in Hi; [lia|].
    destruct i as [|i], j as [|j]; try reflexivity.
    change (put (S i) o (a :: l)) with (a :: put i o l). cbn. apply IH. lia.
  Qed.

  Lemma put_forall (P : object V -> Prop) i (o : object V) l : P o -> Forall P l -> Forall P (put i o l).
  Proof.
    intros Ho Hl. unfold put. apply Forall_app. rewrite <- (firstn_skipn i l) in Hl.
    apply Forall_app in Hl as [H1 H2]. split; [exact H1|].
    destruct H2; constructor; assumption.
  Qed.

  (** The objects there were, after the expression. *)
  Definition left_of (w : world V) (e : expr V) (v : V) (k : bool) : list (object V) :=
    if Nat.eqb (calls e) 0 then objects w
    else match innermost e with
         | AMoved x => if k then objects w else
             match moving c with MoveDeclared => put x (Object (husk v) false true) (objects w) | _ => objects w end
         | _ => objects w
         end.

  Lemma left_of_length w e v k : length (left_of w e v k) = length (objects w).
  Proof.
    unfold left_of. destruct (Nat.eqb _ _); [reflexivity|].
    destruct (innermost e); try reflexivity. destruct k; [reflexivity|].
    destruct (moving c); try reflexivity. apply put_length.
  Qed.

  Definition bump (k : bool) : how := if k then ByCopy else match moving c with MoveDeclared => ByMove | _ => ByCopy end.

  Lemma from_rvalue_made k : can_be_made c k -> from_rvalue c k = Some (bump k).
  Proof.
    unfold can_be_made, from_rvalue, bump, copied_if_const, movable, copied. destruct k.
    - intros [-> ->]. reflexivity.
    - intros [[-> ->] | [-> [-> ->]]]; reflexivity.
  Qed.
  Lemma from_rvalue_not k : ~ can_be_made c k -> from_rvalue c k = None.
  Proof.
    unfold can_be_made, from_rvalue, copied_if_const, movable, copied. intros H.
    destruct (is_array c), k, (has_copy c), (moving c); try reflexivity; exfalso; apply H; tauto.
  Qed.

  Definition counted (w w' : world V) (k : bool) (n : nat) : Prop :=
    match bump k with
    | ByMove => moves w' = moves w + n /\ copies w' = copies w
    | ByCopy => moves w' = moves w /\ copies w' = copies w + n
    end.

  Definition shape (w w' : world V) (e : expr V) (r : result V) (v : V) (k : bool) : Prop :=
    (r = Prvalue v k /\ prvalue e) \/
    (exists x, r = Xvalue x /\ innermost e = AMoved x /\ calls e = 0 /\ ~ std_of_prvalue e) \/
    (exists i, r = Xvalue i /\ length (objects w) <= i /\ nth_error (objects w') i = Some (Object v k true) /\
       std_of_prvalue e).

  Lemma prvalue_zero e : ~ of_lvalue e -> prvalue e -> calls e = 0 -> exists v : V, innermost e = AValue v.
  Proof.
    destruct e; cbn; try contradiction; try discriminate. intros _ _ _. exists v; reflexivity.
  Qed.
  Lemma std_zero e : ~ of_lvalue e -> std_of_prvalue e -> calls e = 0 -> exists v : V, innermost e = AValue v.
  Proof.
    induction e; cbn; try contradiction. intros Hl [Hp|Hp] Hz.
    - now apply prvalue_zero.
    - now apply IHe.
  Qed.

  Lemma construct_made w i v k : nth_error (objects w) i = Some (Object v k true) -> can_be_made c k ->
    construct husk c w i = Some (match bump k with
      | ByMove => World (put i (Object (husk v) k true) (objects w)) (S (moves w)) (copies w)
      | ByCopy => World (objects w) (moves w) (S (copies w)) end, Prvalue v k).
  Proof.
    intros Hi Hm. unfold construct. rewrite Hi. cbn. rewrite (from_rvalue_made _ Hm).
    destruct (bump k); reflexivity.
  Qed.

  (** One call on an rvalue. *)
  Definition called (w : world V) (r : result V) := safe_identity husk c w r.

  Lemma called_ok w w' e r v k ts :
    ~ of_lvalue e -> sensible w e -> original w e v k -> can_be_made c k ->
    objects w' = left_of w e v k ++ ts -> Forall (fun o => alive o = true) ts ->
    counted w w' k (calls e) -> shape w w' e r v k ->
    forall e', (e' = SafeIdentity e \/ e' = Expand e) ->
    exists w'' ts', called w' r = Some (w'', Prvalue v k) /\
      objects w'' = left_of w e' v k ++ ts' /\ Forall (fun o => alive o = true) ts' /\
      counted w w'' k (calls e').
  Proof.
    intros Hl Hs Ho Hm Hobj Hts Hc Hsh e' He'.
    assert (Ecalls : calls e' = S (calls e)) by (destruct He'; subst; reflexivity).
    assert (Einn : innermost e' = innermost e) by (destruct He'; subst; reflexivity).
    assert (Hsame : (forall x, innermost e = AMoved x -> calls e <> 0) -> left_of w e' v k = left_of w e v k).
    { intros H. unfold left_of. rewrite Ecalls, Einn. cbn [Nat.eqb].
      destruct (innermost e) as [x|x|u] eqn:E; try (destruct (Nat.eqb _ _); reflexivity).
      specialize (H x eq_refl). destruct (Nat.eqb (calls e) 0) eqn:En; [apply Nat.eqb_eq in En; contradiction|reflexivity]. }
    assert (Hlen := left_of_length w e v k).
    unfold counted in *. rewrite Ecalls.
    destruct Hsh as [[-> Hp] | [[x [-> [Hx [Hz Hstd]]]] | [i [-> [Hi [Hnth Hstd]]]]]].
    - assert (Hsm : left_of w e' v k = left_of w e v k).
      { apply Hsame. intros x Hx Hz. destruct (prvalue_zero e Hl Hp Hz). congruence. }
      rewrite Hsm. cbn [called safe_identity materialise].
      unfold called, safe_identity, materialise.
      rewrite (construct_made _ _ v k); [|cbn; rewrite nth_error_app2 by lia; now rewrite Nat.sub_diag|exact Hm].
      cbn [objects moves copies].
      destruct (bump k); destruct Hc as [Hc1 Hc2].
      + eexists _, (ts ++ [Object (husk v) k true]). split; [reflexivity|]. cbn [objects moves copies].
        split; [|split; [|lia]].
        * rewrite put_app_right by lia. rewrite Nat.sub_diag. cbn. rewrite Hobj, <- app_assoc. reflexivity.
        * apply Forall_app; split; [exact Hts|repeat constructor].
      + eexists _, (ts ++ [Object v k true]). split; [reflexivity|]. cbn [objects moves copies].
        split; [|split; [|lia]].
        * rewrite Hobj, <- app_assoc. reflexivity.
        * apply Forall_app; split; [exact Hts|repeat constructor].
    - unfold original, sensible in Ho, Hs. rewrite Hx in Ho, Hs.
      destruct Ho as [o [Hox [<- <-]]]. destruct Hs as [o' [Hox' Hal]].
      rewrite Hox in Hox'. injection Hox' as <-.
      assert (Hlt : x < length (objects w)) by (apply nth_error_Some; congruence).
      assert (Hleft : left_of w e (value o) (const o) = objects w) by (unfold left_of; now rewrite Hz).
      rewrite Hleft in Hobj.
      unfold called, safe_identity.
      rewrite (construct_made _ _ (value o) (const o)); [| |exact Hm].
      2:{ rewrite Hobj, nth_error_app1 by lia. rewrite Hox. destruct o; cbn in *; now subst. }
      unfold left_of. rewrite Ecalls, Einn, Hx. cbn [Nat.eqb].
      unfold bump in *. destruct (const o); [|destruct (moving c)]; destruct Hc as [Hc1 Hc2];
        eexists _, ts; (split; [reflexivity|]); cbn [objects moves copies]; (split; [|split; [exact Hts|lia]]);
        try exact Hobj.
      rewrite Hobj. apply put_app_left; lia.
    - assert (Hsm : left_of w e' v k = left_of w e v k).
      { apply Hsame. intros x Hx Hz. destruct (std_zero e Hl Hstd Hz). congruence. }
      rewrite Hsm. unfold called, safe_identity. rewrite (construct_made _ _ v k Hnth Hm).
      destruct (bump k); destruct Hc as [Hc1 Hc2].
      + eexists _, (put (i - length (objects w)) (Object (husk v) k true) ts). split; [reflexivity|].
        cbn [objects moves copies]. split; [|split; [|lia]].
        * rewrite Hobj, put_app_right by lia. now rewrite Hlen.
        * apply put_forall; [reflexivity|exact Hts].
      + eexists _, ts. split; [reflexivity|]. cbn [objects moves copies]. split; [exact Hobj|split; [exact Hts|lia]].
  Qed.

  Lemma called_not w w' e r v k ts :
    ~ of_lvalue e -> sensible w e -> original w e v k -> ~ can_be_made c k ->
    objects w' = left_of w e v k ++ ts -> shape w w' e r v k -> called w' r = None.
  Proof.
    intros Hl Hs Ho Hm Hobj Hsh. apply from_rvalue_not in Hm.
    assert (Hcon : forall w i, nth_error (objects w) i = Some (Object v k true) -> construct husk c w i = None).
    { intros u i Hi. unfold construct. rewrite Hi. cbn. now rewrite Hm. }
    destruct Hsh as [[-> Hp] | [[x [-> [Hx [Hz Hstd]]]] | [i [-> [Hi [Hnth Hstd]]]]]].
    - unfold called, safe_identity, materialise. apply Hcon. cbn.
      rewrite nth_error_app2 by lia. now rewrite Nat.sub_diag.
    - unfold original, sensible in Ho, Hs. rewrite Hx in Ho, Hs.
      destruct Ho as [o [Hox [<- <-]]]. destruct Hs as [o' [Hox' Hal]].
      rewrite Hox in Hox'. injection Hox' as <-.
      assert (Hleft : left_of w e (value o) (const o) = objects w) by (unfold left_of; now rewrite Hz).
      apply Hcon. rewrite Hobj, Hleft, nth_error_app1 by (apply nth_error_Some; congruence).
      rewrite Hox. destruct o; cbn in *; now subst.
    - now apply Hcon.
  Qed.

  Lemma expand_same w r : expand husk c w r = safe_identity husk c w r.
  Proof. reflexivity. Qed.

  Definition fine (e : expr V) (k : bool) : Prop := calls e = 0 \/ can_be_made c k.

  Lemma fine_dec e k : fine e k \/ ~ fine e k.
  Proof.
    unfold fine, can_be_made, copied_if_const, movable, copied.
    destruct (Nat.eq_dec (calls e) 0); [tauto|].
    destruct k, (is_array c), (has_copy c), (moving c);
      ((right; intuition congruence) || (left; right; auto; fail) || (left; right; left; auto; fail) || (left; right; right; auto)).
  Qed.

  Lemma eval_rvalue w e v k : ~ of_lvalue e -> sensible w e -> original w e v k ->
    (fine e k -> exists w' r ts, eval husk c w e = Some (w', r) /\ objects w' = left_of w e v k ++ ts /\
       Forall (fun o => alive o = true) ts /\ counted w w' k (calls e) /\ shape w w' e r v k) /\
    (~ fine e k -> eval husk c w e = None).
  Proof.
    intros Hl Hs Ho.
    assert (Hzero : forall k w, counted w w k 0).
    { intros k' w'. unfold counted. destruct (bump k'); lia. }
    induction e as [x|x|u|e IH|e IH|e IH].
    - exfalso. apply Hl. now exists x.
    - split; [intros _|intros H; exfalso; apply H; now left].
      exists w, (Xvalue x), []. split; [reflexivity|]. split; [cbn; now rewrite app_nil_r|].
      split; [constructor|]. split; [apply Hzero|]. right; left. exists x. repeat split; auto.
    - split; [intros _|intros H; exfalso; apply H; now left].
      exists w, (Prvalue v k), []. destruct Ho as [<- ->]. split; [reflexivity|]. split; [cbn; now rewrite app_nil_r|].
      split; [constructor|]. split; [apply Hzero|]. left. split; [reflexivity|exact I].
    - specialize (IH Hl Hs Ho) as [IH1 IH2]. cbn [eval]. split.
      + intros [H|Hm]; [discriminate|].
        destruct (IH1 (or_intror Hm)) as [w' [r [ts [He [Hobj [Hts [Hc Hsh]]]]]]].
        rewrite He. cbn [fst snd].
        destruct (called_ok w w' e r v k ts Hl Hs Ho Hm Hobj Hts Hc Hsh (SafeIdentity e) (or_introl eq_refl))
          as [w'' [ts' [Hcall [Hobj' [Hts' Hc']]]]].
        exists w'', (Prvalue v k), ts'. repeat split; try assumption. left. split; [reflexivity|exact Hl].
      + intros Hn. destruct (fine_dec e k) as [Hf|Hf].
        * destruct (IH1 Hf) as [w' [r [ts [He [Hobj [Hts [Hc Hsh]]]]]]]. rewrite He. cbn [fst snd].
          refine (called_not w w' e r v k ts Hl Hs Ho _ Hobj Hsh). intros Hm; apply Hn; now right.
        * now rewrite IH2.
    - specialize (IH Hl Hs Ho) as [IH1 IH2]. cbn [eval]. split.
      + intros [H|Hm]; [discriminate|].
        destruct (IH1 (or_intror Hm)) as [w' [r [ts [He [Hobj [Hts [Hc Hsh]]]]]]].
        rewrite He. cbn [fst snd]. rewrite expand_same.
        destruct (called_ok w w' e r v k ts Hl Hs Ho Hm Hobj Hts Hc Hsh (Expand e) (or_intror eq_refl))
          as [w'' [ts' [Hcall [Hobj' [Hts' Hc']]]]].
        exists w'', (Prvalue v k), ts'. repeat split; try assumption. left. split; [reflexivity|exact Hl].
      + intros Hn. destruct (fine_dec e k) as [Hf|Hf].
        * destruct (IH1 Hf) as [w' [r [ts [He [Hobj [Hts [Hc Hsh]]]]]]]. rewrite He. cbn [fst snd].
          rewrite expand_same.
          refine (called_not w w' e r v k ts Hl Hs Ho _ Hobj Hsh). intros Hm; apply Hn; now right.
        * now rewrite IH2.
    - specialize (IH Hl Hs Ho) as [IH1 IH2]. cbn [eval]. split.
      + intros Hf. destruct (IH1 Hf) as [w' [r [ts [He [Hobj [Hts [Hc Hsh]]]]]]]. rewrite He. cbn [fst snd].
        change (left_of w (StdIdentity e) v k) with (left_of w e v k).
        change (calls (StdIdentity e)) with (calls e).
        assert (Hlen := left_of_length w e v k).
        destruct Hsh as [[-> Hp] | [[x [-> [Hx [Hz Hstd]]]] | [i [-> [Hi [Hnth Hstd]]]]]]; cbn [std_identity materialise].
        * eexists _, _, (ts ++ [Object v k true]). split; [reflexivity|]. cbn [objects moves copies].
          split; [now rewrite Hobj, <- app_assoc|]. split; [apply Forall_app; split; [exact Hts|repeat constructor]|].
          split; [exact Hc|]. right; right. eexists. split; [reflexivity|]. cbn [objects].
          split; [rewrite Hobj, app_length; lia|]. split; [|now left].
          rewrite nth_error_app2 by lia. now rewrite Nat.sub_diag.
        * eexists _, _, ts. split; [reflexivity|]. repeat split; try assumption.
          right; left. exists x. repeat split; try assumption. cbn. intros [Hp|Hp]; [|contradiction].
          destruct (prvalue_zero e Hl Hp Hz). congruence.
        * eexists _, _, ts. split; [reflexivity|]. repeat split; try assumption.
          right; right. exists i. repeat split; try assumption. now right.
      + intros Hn. now rewrite IH2.
  Qed.

  Lemma eval_lvalue w e x : innermost e = AVariable x -> eval husk c w e = Some (w, Lvalue x).
  Proof.
    induction e; cbn; intros H; try discriminate.
    - congruence.
    - now rewrite IHe.
    - now rewrite IHe.
    - now rewrite IHe.
  Qed.

  Lemma lvalue_dec e : (exists x, @innermost V e = AVariable x) \/ ~ of_lvalue e.
  Proof.
    unfold of_lvalue. destruct (innermost e) as [x|x|u] eqn:E.
    - left; now exists x.
    - right; intros [y H]; congruence.
    - right; intros [y H]; congruence.
  Qed.

  Lemma original_exists w e : @sensible V w e -> exists v k, original w e v k.
  Proof.
    unfold sensible, original. destruct (innermost e) as [x|x|u].
    - intros [o [H _]]. exists (value o), (const o), o. auto.
    - intros [o [H _]]. exists (value o), (const o), o. auto.
    - intros _. exists u, false. auto.
  Qed.

  Lemma end_temporaries_app l ts : @end_temporaries V (length l) (l ++ ts) =
    l ++ map (fun o => Object (value o) (const o) false) ts.
  Proof.
    unfold end_temporaries. rewrite firstn_app, skipn_app, firstn_all, skipn_all, Nat.sub_diag. cbn.
    now rewrite app_nil_r.
  Qed.

  Lemma world_eta (w : world V) : World (objects w) (moves w) (copies w) = w.
  Proof. destruct w; reflexivity. Qed.

  Lemma declare_lvalue w e x : innermost e = AVariable x -> declare husk c w e = Some (w, x).
  Proof.
    intros H. unfold declare. rewrite (eval_lvalue w e x H). cbn [fst snd].
    rewrite <- (app_nil_r (objects w)) at 2. rewrite end_temporaries_app. cbn [map].
    rewrite app_nil_r, world_eta. reflexivity.
  Qed.

  (** The declaration, for rvalues. *)
  Lemma declare_rvalue w e v k : ~ of_lvalue e -> sensible w e -> original w e v k ->
    (fine e k -> exists w' r us, declare husk c w e = Some (w', r) /\ objects w' = left_of w e v k ++ us /\
       counted w w' k (calls e) /\
       ((prvalue e /\ length (objects w) <= r /\ nth_error (objects w') r = Some (Object v k true)) \/
        (innermost e = AMoved r /\ calls e = 0 /\ ~ prvalue e /\ ~ std_of_prvalue e) \/
        (std_of_prvalue e /\ length (objects w) <= r /\ nth_error (objects w') r = Some (Object v k false)))) /\
    (~ fine e k -> declare husk c w e = None).
  Proof.
    intros Hl Hs Ho. destruct (eval_rvalue w e v k Hl Hs Ho) as [H1 H2]. unfold declare. split.
    - intros Hf. destruct (H1 Hf) as [w' [r [ts [-> [Hobj [Hts [Hc Hsh]]]]]]]. cbn [fst snd].
      assert (Hlen := left_of_length w e v k).
      rewrite Hobj, <- Hlen, end_temporaries_app.
      destruct Hsh as [[-> Hp] | [[x [-> [Hx [Hz Hstd]]]] | [i [-> [Hi [Hnth Hstd]]]]]].
      + eexists _, _, (_ ++ [Object v k true]). split; [reflexivity|]. cbn [objects moves copies].
        split; [now rewrite <- app_assoc|]. split; [exact Hc|]. left. split; [exact Hp|].
        split; [rewrite app_length; lia|]. rewrite nth_error_app2 by lia. now rewrite Nat.sub_diag.
      + eexists _, _, _. split; [reflexivity|]. cbn [objects moves copies]. split; [reflexivity|]. split; [exact Hc|].
        right; left. repeat split; try assumption. intros Hp. destruct (prvalue_zero e Hl Hp Hz). congruence.
      + eexists _, _, _. split; [reflexivity|]. cbn [objects moves copies]. split; [reflexivity|]. split; [exact Hc|].
        right; right. split; [exact Hstd|]. split; [lia|].
        rewrite Hobj, nth_error_app2 in Hnth by lia.
        rewrite nth_error_app2 by lia. rewrite nth_error_map, Hnth. reflexivity.
    - intros Hn. now rewrite (H2 Hn).
  Qed.
End Proofs.
