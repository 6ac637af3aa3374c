(** * Proofs about the Librato sink: names and the goroutine *)
From Verif Require Import SLibrato PUtf8 PApi PWriter PLibrato.

(** ** Sanitising *)
Lemma allowed_code a : allowed a ↔ should_sanitize (zcode a) = false.
Proof.
  unfold allowed. transitivity (bool_decide (a ∈ bytes_of "ABCDEFGHIJKLMNOPQRSTUVWXYZabcdefghijklmnopqrstuvwxyz0123456789.:-_") = true).
  { by rewrite bool_decide_eq_true. }
  destruct a as [[] [] [] [] [] [] [] []]; vm_compute; done.
Qed.
Lemma kept_ascii r : should_sanitize r = false → 0 ≤ r < 128.
Proof.
  unfold should_sanitize. rewrite negb_false_iff, !orb_true_iff, !andb_true_iff, !Z.leb_le, !Z.eqb_eq. lia.
Qed.
Lemma kept_allowed r : should_sanitize r = false → allowed (zchar r).
Proof. intros H. apply allowed_code. pose proof (kept_ascii r H). by rewrite zcode_zchar by lia. Qed.
Lemma bytes_str l : bytes_of (str_of l) = l.
Proof. induction l as [|x l IH]; [done|]. cbn. by rewrite IH. Qed.
Lemma str_bytes s : str_of (bytes_of s) = s.
Proof. induction s as [|x s IH]; [done|]. cbn. by rewrite IH. Qed.
Lemma runes_ascii k : (∀ a, a ∈ bytes_of k → zcode a < 128) → runes k = map zcode (bytes_of k).
Proof.
  induction k as [|a k IH]; intros H; [done|]. rewrite runes_cons.
  assert (decode_rune a k = (zcode a, k)) as ->. { unfold decode_rune. destruct (Z.ltb_spec (zcode a) 128); [done|]. specialize (H a ltac:(left)). lia. }
  cbn. f_equal. apply IH. intros b Hb. apply H. by right.
Qed.
Lemma runes_ascii_inv k : Forall (λ r, r < 128) (runes k) → k = str_of (map zchar (runes k)).
Proof.
  pose proof (runes_reads k) as H. induction H as [|r s rs Hr Hs IH|a s rs Hb Hs IH]; intros Hf; [done| |].
  - inversion Hf; subst. cbn. rewrite <-IH by done. unfold utf8. by rewrite decide_True.
  - inversion Hf; subst. lia.
Qed.
Definition sanitized_char (r : Z) : ascii := if should_sanitize r then "_"%char else zchar r.
Lemma sanitize_runes k : sanitize_key k = str_of (map sanitized_char (runes k)).
Proof.
  unfold sanitize_key. destruct (existsb should_sanitize (runes k)) eqn:E; [done|].
  assert (Hf : Forall (λ r, should_sanitize r = false) (runes k)).
  { apply Forall_forall. intros r Hr. destruct (should_sanitize r) eqn:Es; [|done].
    assert (existsb should_sanitize (runes k) = true); [|congruence]. apply existsb_exists. exists r. split; [by apply elem_of_list_In|done]. }
  rewrite (runes_ascii_inv k) at 1.
  - f_equal. apply map_ext_Forall. eapply Forall_impl; [exact Hf|]. intros r Hr. cbn in Hr. unfold sanitized_char. by rewrite Hr.
  - eapply Forall_impl; [exact Hf|]. intros r Hr. apply kept_ascii in Hr. lia.
Qed.
Lemma thm_sanitize_allowed k a : a ∈ bytes_of (sanitize_key k) → allowed a.
Proof.
  rewrite sanitize_runes, bytes_str. intros (r&->&_)%elem_of_list_fmap. unfold sanitized_char.
  destruct (should_sanitize r) eqn:E; [|by apply kept_allowed]. apply (bool_decide_unpack _). by vm_compute.
Qed.
Lemma thm_sanitize_unchanged k : (∀ a, a ∈ bytes_of k → allowed a) → sanitize_key k = k.
Proof.
  intros H. unfold sanitize_key. assert (existsb should_sanitize (runes k) = false) as ->; [|done].
  destruct (existsb should_sanitize (runes k)) eqn:E; [|done]. apply existsb_exists in E as (r&Hr&Er). exfalso.
  rewrite runes_ascii in Hr.
  - apply in_map_iff in Hr as (a&<-&Ha). apply elem_of_list_In in Ha. apply H, allowed_code in Ha. congruence.
  - intros a Ha. apply H, allowed_code, kept_ascii in Ha. lia.
Qed.
Lemma thm_sanitize_idem k : sanitize_key (sanitize_key k) = sanitize_key k.
Proof. apply thm_sanitize_unchanged. apply thm_sanitize_allowed. Qed.
Lemma thm_sanitize_chars k rs : reads k rs →
  length (bytes_of (sanitize_key k)) = length rs ∧
  ∀ i r, rs !! i = Some r →
    ∃ a, bytes_of (sanitize_key k) !! i = Some a ∧ ((zcode a = r ∧ allowed a) ∨ (a = "_"%char ∧ ∀ b, allowed b → zcode b ≠ r)).
Proof.
  intros Hk. apply runes_spec in Hk as <-. rewrite sanitize_runes, bytes_str. split; [by rewrite map_length|].
  intros i r Hr. exists (sanitized_char r). split; [change (map sanitized_char (runes k)) with (sanitized_char <$> runes k); by rewrite list_lookup_fmap, Hr|].
  unfold sanitized_char. destruct (should_sanitize r) eqn:E.
  - right. split; [done|]. intros b Hb <-. apply allowed_code in Hb. congruence.
  - left. split; [apply zcode_zchar; apply kept_ascii in E; lia|by apply kept_allowed].
Qed.

(** ** Names *)
Lemma concat_inj l1 : ∀ l2, Forall dot_free l1 → Forall dot_free l2 → l1 ≠ [] → l2 ≠ [] → dotted l1 = dotted l2 → l1 = l2.
Proof.
  unfold dotted, dot_free.
  assert (P : ∀ (x y a b : string), "."%char ∉ bytes_of x → "."%char ∉ bytes_of y → x +:+ String "." a = y +:+ String "." b → x = y ∧ a = b).
  { induction x as [|c x IH]; intros [|d y] a b Hx Hy E.
    - by injection E.
    - exfalso. injection E as <- _. apply Hy. left.
    - exfalso. injection E as -> _. apply Hx. left.
    - injection E as -> E. cbn in Hx, Hy. rewrite elem_of_cons in Hx, Hy. destruct (IH y a b) as [-> ->]; [tauto|tauto|exact E|done]. }
  assert (Q : ∀ (x y a : string), "."%char ∉ bytes_of x → x ≠ y +:+ String "." a).
  { intros x y a Hx ->. apply Hx. rewrite bytes_of_app. apply elem_of_app. right. cbn. left. }
  induction l1 as [|x l1 IH]; intros l2 F1 F2 N1 N2 E; [done|]. destruct l2 as [|y l2]; [done|].
  apply Forall_cons in F1 as [Hx F1]. apply Forall_cons in F2 as [Hy F2].
  destruct l1 as [|x' l1], l2 as [|y' l2].
  - cbn in E. by subst.
  - exfalso. change (x = y +:+ String "." (String.concat "." (y' :: l2))) in E. exact (Q _ _ _ Hx E).
  - exfalso. change (x +:+ String "." (String.concat "." (x' :: l1)) = y) in E. symmetry in E. exact (Q _ _ _ Hy E).
  - change (x +:+ String "." (String.concat "." (x' :: l1)) = y +:+ String "." (String.concat "." (y' :: l2))) in E.
    apply P in E as [-> E]; [|done|done]. f_equal. by apply IH.
Qed.
Lemma sapp_inj_l (a b d : string) : a +:+ b = a +:+ d → b = d.
Proof. induction a as [|x a IH]; [done|]. intros E. injection E as E. by apply IH. Qed.
Lemma full_inj c l1 l2 : Forall dot_free l1 → Forall dot_free l2 → l1 ≠ [] → l2 ≠ [] → full c l1 = full c l2 → l1 = l2.
Proof.
  intros F1 F2 N1 N2 E. unfold full in E. case_decide; [by apply concat_inj|].
  unfold dotted in E. destruct l1 as [|x l1], l2 as [|y l2]; try done.
  change (c_prefix c +:+ "." +:+ dotted (x :: l1) = c_prefix c +:+ "." +:+ dotted (y :: l2)) in E.
  apply sapp_inj_l, sapp_inj_l in E. by apply concat_inj.
Qed.
Lemma thm_names_plain c m1 m2 : plain_metric m1 → plain_metric m2 → metric_name c m1 = metric_name c m2 → m1 = m2.
Proof.
  assert (D : ∀ s, s ∈ ["count"; "error"; "timing"; "gauge"; ""; "success"; "validation_error"; "panic"; "junk"] → dot_free s).
  { intros s Hs. unfold dot_free. repeat (apply elem_of_cons in Hs as [->|Hs]; [apply (bool_decide_unpack _); by vm_compute|]). inversion Hs. }
  assert (D2 : ∀ s, s ∈ [""; "success"; "validation_error"; "panic"; "error"; "junk"] → dot_free s).
  { intros s Hs. apply D. rewrite !elem_of_cons in *. tauto. }
  intros H1 H2 E. unfold metric_name in E. apply full_inj in E.
  - destruct m1, m2; try done; injection E; intros; subst; try done; exfalso; cbn in H1, H2; unfold plain_event in *; rewrite ?elem_of_cons in *; tauto.
  - destruct m1; cbn in H1; unfold plain_event in H1; rewrite !Forall_cons;
      repeat split; first [apply Forall_nil_2|tauto|apply D2; tauto|apply D; rewrite !elem_of_cons; tauto].
  - destruct m2; cbn in H2; unfold plain_event in H2; rewrite !Forall_cons;
      repeat split; first [apply Forall_nil_2|tauto|apply D2; tauto|apply D; rewrite !elem_of_cons; tauto].
  - by destruct m1.
  - by destruct m2.
Qed.
Definition sort_suffix (k : sort) : string := match k with Counts => ".count" | Durations => ".timing" | Values => ".gauge" end.
Lemma name_about c m : metric_name c m =
  (if decide (c_prefix c = "") then "" else c_prefix c +:+ ".") +:+ (about m +:+ sort_suffix (sort_of m)).
Proof.
  unfold metric_name, full. case_decide; destruct m; cbn [about sort_of sort_suffix dotted String.concat]; rewrite ?sapp_assoc; reflexivity.
Qed.
Lemma suffix_inj (a b : string) k l : a +:+ sort_suffix k = b +:+ sort_suffix l → k = l ∧ a = b.
Proof.
  intros E. apply (f_equal bytes_of) in E. rewrite !bytes_of_app in E.
  assert (k = l) as ->.
  { apply (f_equal (λ x, take 4 (rev x))) in E. rewrite !rev_app_distr in E. by destruct k, l; cbn in E. }
  split; [done|]. apply app_inv_tail in E. by rewrite <-(str_bytes a), <-(str_bytes b), E.
Qed.
Lemma thm_names_exactly c m1 m2 : metric_name c m1 = metric_name c m2 ↔ sort_of m1 = sort_of m2 ∧ about m1 = about m2.
Proof.
  rewrite !name_about. split.
  - intros E. apply sapp_inj_l in E. by apply suffix_inj.
  - by intros [-> ->].
Qed.
Lemma thm_names_of c job e : counted c job e ++ map fst (measured c job e) = map (metric_name c) (metrics_of c job e).
Proof. by destruct e. Qed.

(** ** The goroutine *)
#[local] Arguments cmds_of : simpl never.
#[local] Arguments lib_run : simpl never.
Lemma go_inv c g tr g' : gosteps c g tr g' →
  go_lib g' = lib_run c (go_lib g) (loop_ops (go_q g) tr) ∧ go_q g ++ emitted tr = cmds_of (loop_ops (go_q g) tr) ++ go_q g'.
Proof.
  induction 1 as [g|g a g' tr g'' Hs Hss IH]; [cbn; by rewrite app_nil_r|].
  destruct IH as [IH1 IH2].
  destruct Hs; cbn in *; rewrite ?IH1.
  - split; [done|]. rewrite <-IH2, <-app_assoc. done.
  - split; [done|]. change (cmds_of (LCmd job e :: ?l)) with ((job, e) :: cmds_of l). cbn. by rewrite IH2.
  - split; [done|]. exact IH2.
  - done.
  - done.
Qed.
Lemma go_done c g tr g' : gosteps c g tr g' → go_phase g = LbDone → go_phase g' = LbDone ∧ go_lib g' = go_lib g ∧ go_q g' = go_q g ++ emitted tr.
Proof.
  induction 1 as [g|g a g' tr g'' Hs Hss IH]; intros Hd; [cbn; by rewrite app_nil_r|].
  destruct Hs; cbn in *; try done. destruct (IH Hd) as (H1&H2&H3). split; [done|]. split; [done|]. rewrite H3, <-app_assoc. done.
Qed.
Lemma go_full c g tr g' : gosteps c g tr g' → (Z.of_nat (length (go_q g)) ≤ lib_buff) → Z.of_nat (length (go_q g')) ≤ lib_buff.
Proof.
  induction 1 as [g|g a g' tr g'' Hs Hss IH]; intros Hb; [done|]. apply IH. destruct Hs; cbn in *; rewrite ?app_length; cbn; lia.
Qed.
Lemma gosteps_app c g1 tr1 g2 tr2 g3 : gosteps c g1 tr1 g2 → gosteps c g2 tr2 g3 → gosteps c g1 (tr1 ++ tr2) g3.
Proof. induction 1; cbn; [done|]. intros. econstructor; eauto. Qed.
Lemma gosteps_app_inv c tr1 : ∀ g1 tr2 g3, gosteps c g1 (tr1 ++ tr2) g3 → ∃ g2, gosteps c g1 tr1 g2 ∧ gosteps c g2 tr2 g3.
Proof.
  induction tr1 as [|a tr1 IH]; intros g1 tr2 g3 H; [exists g1; split; [constructor|done]|].
  cbn in H. inversion H as [|? ? g' ? ? Hs Hss]; subst. apply IH in Hss as (g2&H1&H2). exists g2. split; [by econstructor|done].
Qed.
Lemma stopped_done c g tr g' : gosteps c g tr g' → lstopped tr → go_phase g' = LbDone.
Proof.
  intros H (i&Hi). apply elem_of_list_split in Hi as (t1&t2&->). apply gosteps_app_inv in H as (g2&H1&H2).
  inversion H2 as [|? ? g3 ? ? Hs Hss]; subst. inversion Hs; subst. by apply (go_done _ _ _ _ Hss).
Qed.
Lemma thm_go c tr g : gosteps c lgo0 tr g →
  lb_posts (go_lib g) = posts c (loop_ops [] tr) ∧ emitted tr = cmds_of (loop_ops [] tr) ++ go_q g.
Proof. intros H. apply go_inv in H as [-> H2]. done. Qed.
(** what has been sent once it is stopped never changes *)
Lemma thm_go_stopped c tr1 g tr2 g' : gosteps c lgo0 tr1 g → lstopped tr1 → gosteps c g tr2 g' →
  lb_posts (go_lib g') = lb_posts (go_lib g) ∧ emitted tr1 ++ emitted tr2 = cmds_of (loop_ops [] tr1) ++ go_q g'.
Proof.
  intros H1 Hs H2. pose proof (stopped_done _ _ _ _ H1 Hs) as Hd. destruct (go_done _ _ _ _ H2 Hd) as (_&->&->).
  apply thm_go in H1 as [_ ->]. by rewrite <-app_assoc.
Qed.
Lemma fill c (q : list (string * emission)) n job e s w : ∀ ph, (Z.of_nat (length q) + Z.of_nat n ≤ lib_buff) →
  gosteps c (LGo q ph s w) (replicate n (GEmit job e)) (LGo (q ++ replicate n (job, e)) ph s w).
Proof.
  revert q. induction n as [|n IH]; intros q ph Hl; cbn; [rewrite app_nil_r; constructor|].
  econstructor; [constructor; lia|]. change ((job, e) :: replicate n (job, e)) with ([(job, e)] ++ replicate n (job, e)). rewrite app_assoc. apply IH.
  rewrite app_length. cbn. lia.
Qed.
Lemma thm_go_blocked c : ∃ tr g, gosteps c lgo0 tr g ∧ lstopped tr ∧
  ∀ tr' g', gosteps c g tr' g' → ∀ job' e' g'', ¬ gostep c g' (GEmit job' e') g''.
Proof.
  set (job := "j"). set (e := WEvent "e"). exists ([GStop 0; GStopped 0] ++ replicate (Z.to_nat lib_buff) (GEmit job e)). eexists. split; [|split].
  - eapply gosteps_app; [|apply (fill c [] (Z.to_nat lib_buff) job e lib0 [] LbDone); cbn [length]; unfold lib_buff; lia].
    econstructor; [constructor; apply not_elem_of_nil|]. econstructor; [apply Go_stopped; left|]. constructor.
  - exists 0%nat. right. left.
  - intros tr' g' H job' e' g'' Hs. apply go_done in H as (_&_&Hq); [|done]. cbn [go_q app] in Hq.
    inversion Hs as [q ph s w ? ? Hr| | | |]; subst. cbn [go_q] in Hq. subst q. rewrite app_length, replicate_length in Hr. unfold lib_buff in Hr. lia.
Qed.
Lemma thm_go_running c tr g job e : gosteps c lgo0 tr g → go_phase g = LbRun →
  ∃ tr' g', gosteps c g (tr' ++ [GEmit job e]) g' ∧ tr' ∈ [[]; [GTake]].
Proof.
  intros H Hr. destruct g as [q ph s w]. cbn in Hr. subst ph.
  pose proof (go_full _ _ _ _ H) as Hf. cbn [go_q lgo0 length] in Hf. specialize (Hf ltac:(unfold lib_buff; lia)).
  destruct q as [|[job' e'] q].
  - exists [], (LGo [(job, e)] LbRun s w). split; [|left]. econstructor; [|constructor]. apply (Go_emit c []). done.
  - exists [GTake]. eexists. split; [|right; left]. cbn. econstructor; [constructor|]. econstructor; [|constructor]. constructor.
    cbn [length] in Hf. lia.
Qed.
Lemma thm_stop_loses : ∃ c tr g, gosteps c lgo0 tr g ∧ lstopped tr ∧ emitted tr ≠ [] ∧
  ∀ tr' g', gosteps c g tr' g' → lb_posts (go_lib g') = [].
Proof.
  exists (LConf "" sanitize_key 15000000000 "host"), [GEmit "j" (WEvent "e"); GTake; GStop 0; GStopped 0]. eexists. split; [|split; [|split]].
  - econstructor; [apply (Go_emit _ []); unfold lib_buff; cbn; lia|]. econstructor; [constructor|]. econstructor; [constructor; apply not_elem_of_nil|].
    econstructor; [apply Go_stopped; left|]. constructor.
  - exists 0%nat. do 3 right. left.
  - done.
  - intros tr' g' H. apply go_done in H as (_&->&_); done.
Qed.
Lemma thm_sent c tr now ok : since_flush [] tr ≠ [] →
  (∀ k g, summarises (samples c k (since_flush [] tr)) g → finite (lg_sum g) ∧ finite (lg_min g) ∧ finite (lg_max g) ∧ finite (lg_ss g)) →
  ∃ b, posts c (tr ++ [LFlush now ok]) = posts c tr ++ [(LPost now (Z.quot (c_period c) 1000000000) (c_source c) b, ok)].
Proof.
  intros Hn Hf. destruct (thm_batch c tr now ok) as [_ H]. destruct (H Hn) as (b&Hb&Hr&_). exists b. apply Hr.
  intros k g Hk. apply (Hf k). destruct (Hb k) as [(_&_&E)|[(_&_&E)|(_&g'&Hs&E)]]; rewrite E in Hk; try done. by injection Hk as ->.
Qed.
