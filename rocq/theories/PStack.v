(** * Proofs about stack traces and the Bugsnag sink *)
From Verif Require Export SStack PStatsd.

Lemma last_index_none c s : ¬ occurs c s → last_index_byte c s = None.
Proof.
  induction s as [|x s IH]; cbn; [done|]. intros H. rewrite IH by tauto.
  destruct (Ascii.eqb_spec x c); [|done]. tauto.
Qed.
Lemma index_none c s : ¬ occurs c s → index_byte c s = None.
Proof.
  induction s as [|x s IH]; cbn; [done|]. intros H. destruct (Ascii.eqb_spec x c); [tauto|]. by rewrite IH by tauto.
Qed.
Lemma last_index_app c p s : ¬ occurs c s → last_index_byte c (p +:+ String c s) = Some (String.length p).
Proof.
  intros H. induction p as [|x p IH].
  - change ("" +:+ String c s) with (String c s). cbn. rewrite last_index_none by done. by rewrite Ascii.eqb_refl.
  - rewrite app_cons_s. cbn. by rewrite IH.
Qed.
Lemma index_app c p s : ¬ occurs c p → index_byte c (p +:+ String c s) = Some (String.length p).
Proof.
  induction p as [|x p IH]; intros H.
  - change ("" +:+ String c s) with (String c s). cbn. by rewrite Ascii.eqb_refl.
  - rewrite app_cons_s. cbn in *. destruct (Ascii.eqb_spec x c); [tauto|]. by rewrite IH by tauto.
Qed.
Lemma str_take_app p s : str_take (String.length p) (p +:+ s) = p.
Proof. induction p as [|x p IH]; [by destruct s|]. rewrite app_cons_s. cbn. by rewrite IH. Qed.
Lemma str_drop_app p x s : str_drop (String.length p + 1) (p +:+ String x s) = s.
Proof. induction p as [|y p IH]; [done|]. rewrite app_cons_s. cbn. by rewrite IH. Qed.

Lemma occurs_dec c s : occurs c s ∨ ¬ occurs c s.
Proof. induction s as [|x s IH]; cbn; [tauto|]. destruct (ascii_dec x c); tauto. Qed.

Lemma strip_path path base :
  is_path path → ¬ occurs "/" base →
  match last_index_byte "/" (path +:+ base) with
  | Some i => (str_take i (path +:+ base) +:+ "/", str_drop (i + 1) (path +:+ base))
  | None => ("", path +:+ base)
  end = (path, base).
Proof.
  intros [->|[p ->]] Hb.
  - change ("" +:+ base) with base. by rewrite last_index_none.
  - rewrite app_assoc_s. change ("/" +:+ base) with (String "/" base).
    by rewrite last_index_app, str_take_app, str_drop_app.
Qed.

Lemma split_name path pkg name :
  is_path path → ¬ occurs "/" pkg → ¬ occurs "." pkg → ¬ occurs "/" name →
  package_and_name (path +:+ pkg +:+ "." +:+ name) = (path +:+ pkg, name).
Proof.
  intros Hp H1 H2 H3. unfold package_and_name. rewrite strip_path; [|done|].
  - change (pkg +:+ "." +:+ name) with (pkg +:+ String "." name).
    by rewrite index_app, str_take_app, str_drop_app.
  - clear H2. induction pkg as [|x pkg IH].
    + change ("" +:+ "." +:+ name) with (String "." name). cbn. intros [Hx|Hx]; [discriminate Hx|tauto].
    + rewrite app_cons_s. cbn in *. intros [Hx|Hx]; [tauto|]. apply IH; tauto.
Qed.
Lemma split_plain path base :
  is_path path → ¬ occurs "/" base → ¬ occurs "." base → package_and_name (path +:+ base) = (path, base).
Proof.
  intros Hp H1 H2. unfold package_and_name. rewrite strip_path by done. by rewrite index_none.
Qed.

(** every name has one of the two forms *)
Lemma cut_last c s : occurs c s → ∃ p b, s = p +:+ String c b ∧ ¬ occurs c b.
Proof.
  induction s as [|x s IH]; [done|]. intros H. destruct (occurs_dec c s) as [Hs|Hs].
  - destruct (IH Hs) as (p&b&->&Hb). exists (String x p), b. split; [by rewrite app_cons_s|done].
  - cbn in H. destruct H as [->|]; [|done]. exists "", s. done.
Qed.
Lemma cut_first c s : occurs c s → ∃ p b, s = p +:+ String c b ∧ ¬ occurs c p.
Proof.
  induction s as [|x s IH]; [done|]. intros H. destruct (ascii_dec x c) as [->|Hx].
  - exists "", s. split; [done|]. cbn. tauto.
  - cbn in H. destruct H as [|H]; [done|]. destruct (IH H) as (p&b&->&Hb).
    exists (String x p), b. split; [by rewrite app_cons_s|]. cbn. tauto.
Qed.
Lemma occurs_app c a b : occurs c (a +:+ b) ↔ occurs c a ∨ occurs c b.
Proof.
  induction a as [|x a IH]; [change ("" +:+ b) with b; cbn; tauto|]. rewrite app_cons_s. cbn. tauto.
Qed.

Lemma name_forms s :
  ∃ path base, s = path +:+ base ∧ is_path path ∧ ¬ occurs "/" base ∧
    ((∃ pkg name, base = pkg +:+ "." +:+ name ∧ ¬ occurs "." pkg) ∨ ¬ occurs "." base).
Proof.
  assert (∃ path base, s = path +:+ base ∧ is_path path ∧ ¬ occurs "/" base) as (path&base&->&Hp&Hb).
  { destruct (occurs_dec "/" s) as [H|H].
    - destruct (cut_last _ _ H) as (p&b&->&Hb). exists (p +:+ "/"), b. split_and!; [|by right; eauto|done].
      by rewrite app_assoc_s.
    - exists "", s. split_and!; [done|by left|done]. }
  exists path, base. split_and!; [done..|]. destruct (occurs_dec "." base) as [H|H]; [|by right].
  left. destruct (cut_first _ _ H) as (p&b&->&Hpb). exists p, b. done.
Qed.

Lemma split_lossless s :
  let '(pkg, name) := package_and_name s in
  ¬ occurs "/" name ∧
  ((∃ path base, s = path +:+ base ∧ is_path path ∧ ¬ occurs "/" base ∧ ¬ occurs "." base ∧ pkg = path ∧ name = base) ∨
   s = pkg +:+ "." +:+ name).
Proof.
  destruct (name_forms s) as (path&base&->&Hp&Hb&[(pkg&name&->&Hpk)|Hd]).
  - rewrite !occurs_app in Hb. rewrite split_name by tauto. split; [tauto|]. right. by rewrite !app_assoc_s.
  - rewrite split_plain by done. split; [done|]. left. eauto 10.
Qed.

(** ** System packages *)
Lemma has_prefix_spec s p : has_prefix s p = true ↔ ∃ r, s = p +:+ r.
Proof.
  unfold has_prefix. revert s; induction p as [|x p IH]; intros s.
  - cbn. split; [|by destruct s]. intros _. by exists s.
  - destruct s as [|y s]; cbn.
    + split; [done|]. intros [r Hr]. by rewrite app_cons_s in Hr.
    + destruct (ascii_dec x y) as [->|Hne].
      * rewrite IH. split; intros [r Hr]; exists r; [by rewrite Hr, app_cons_s|].
        rewrite app_cons_s in Hr. by injection Hr.
      * split; [done|]. intros [r Hr]. rewrite app_cons_s in Hr. by injection Hr as ? _.
Qed.

(** ** Traces *)
Lemma trace_bound skip callers : (length (t_stack (new_trace skip callers)) ≤ 50)%nat.
Proof. cbn [new_trace t_stack]. rewrite take_length. unfold MaxStackDepth. lia. Qed.

Lemma frames_idem rt t :
  (trace_frames rt (trace_frames rt t).1) = trace_frames rt t.
Proof. unfold trace_frames. destruct t as [s [fs|]]; done. Qed.

(** ** Payload *)
Lemma fold_frames fs acc :
  fold_left (λ acc f, acc ++ [BFrame (f_file f) (f_line f) (f_pkg f +:+ ":" +:+ f_name f) (negb (f_system f))]) fs acc =
  acc ++ map (λ f, BFrame (f_file f) (f_line f) (f_pkg f +:+ ":" +:+ f_name f) (negb (f_system f))) fs.
Proof.
  revert acc; induction fs as [|f fs IH]; intros acc; cbn; [by rewrite app_nil_r|]. rewrite IH, <-app_assoc. done.
Qed.

Lemma payload_faithful cfg job event msg frames kvs :
  let p := new_payload cfg job event msg frames kvs in
  bp_apikey p = bc_apikey cfg ∧
  ∃ ev ex, bp_events p = [ev] ∧ bv_excs ev = [ex] ∧ bv_context ev = job ∧
    bv_stage ev = bc_stage cfg ∧ bv_host ev = bc_host cfg ∧ bv_kvs ev = kvs ∧
    be_class ex = event ∧ be_message ex = msg ∧
    length (be_stack ex) = length frames ∧
    (∀ i f, frames !! i = Some f → ∃ bf, be_stack ex !! i = Some bf ∧ bf_file bf = f_file f ∧
       bf_line bf = f_line f ∧ bf_method bf = f_pkg f +:+ ":" +:+ f_name f ∧ (bf_inproject bf = true ↔ f_system f = false)) ∧
    (∀ u, kvs !! "request" = Some u → bv_url ev = u) ∧ (kvs !! "request" = None → bv_url ev = "") ∧
    (∀ u, kvs !! "formdata" = Some u → bv_params ev = u) ∧ (kvs !! "formdata" = None → bv_params ev = "").
Proof.
  cbn. split; [done|]. eexists _, _. split; [reflexivity|]. cbn. split; [reflexivity|]. cbn.
  rewrite fold_frames. cbn. split_and!; try done.
  - by rewrite map_length.
  - intros i f Hf. eexists. split; [by rewrite list_lookup_fmap, Hf|]. cbn. split_and!; try done.
    by destruct (f_system f).
  - by intros u ->.
  - by intros ->.
  - by intros u ->.
  - by intros ->.
Qed.

(** ** The sending loop *)
Lemma bsteps_inv tr s :
  bsteps bq0 tr s → q_sent s ++ q_chan s = enqueued tr.
Proof.
  intros H. assert (Hg : ∀ s0, bsteps s0 tr s → q_sent s ++ q_chan s = q_sent s0 ++ q_chan s0 ++ enqueued tr).
  { clear H. induction tr as [|a tr IH]; intros s0 H; inversion H; subst.
    - cbn. by rewrite app_nil_r.
    - match goal with H : bsteps _ tr s |- _ => rewrite (IH _ H) end.
      match goal with H : bstep _ _ _ |- _ => inversion H; subst end; cbn; by rewrite <-?app_assoc. }
  rewrite (Hg _ H). done.
Qed.

(** while the loop runs, it can send everything that is queued *)
Lemma bsteps_flush q sent : ∃ tr, bsteps (BQ q sent false) tr (BQ [] (sent ++ q) false) ∧ Forall (λ a, a = BNotify) tr.
Proof.
  revert sent; induction q as [|c q IH]; intros sent.
  - exists []. rewrite app_nil_r. split; [constructor|constructor].
  - destruct (IH (sent ++ [c])) as (tr&H1&H2). exists (BNotify :: tr). rewrite <-app_assoc in H1. cbn in H1.
    split; [|by constructor]. econstructor; [constructor|done].
Qed.

(** after shutdown nothing more is sent *)
Lemma bsteps_stopped s tr s' : q_done s = true → bsteps s tr s' → q_sent s' = q_sent s.
Proof.
  intros Hd H. induction H as [|s a m tr s' Ha _ IH]; [done|]. inversion Ha; subst; cbn in *; [|done|done].
  by apply IH.
Qed.
