(** * A concrete screen *)
From Verif Require Import PSystemEx PSystemEx2 PTopTable PWireEx PHealthdEx PTop PApi PApiEx SScreen.

Definition y_order : list (string * jobagg) := match handler_overall (map pa_ia (hd_pub y_end)) with Some x => map_to_list (ia_jobs x) | None => [] end.
Definition y_answer (sort name : string) (height : Z) : option (list ajob) :=
  handler_jobs isort (map pa_ia (hd_pub y_end)) y_order (query_get (top_query sort name height) "sort") (query_get (top_query sort name height) "limit").
Definition y_text (sort name : string) (height : Z) : string :=
  match top_jobs_event "" (render "" (enc_api_jobs go_float "healthd.1" minute (y_answer sort name height))).2 0 with
  | TResponse l _ => match jobs_table z_bold z_color (map Some (top_jobs (omap id l) name)) with Ok t => visible false t | Crash _ => "crash" end
  | TError _ _ => "error"
  end.
Lemma y_lines :
  y_text "name" "" 24 = String.concat tab_s job_columns +:+ nl_s +:+
    String.concat tab_s ["job"; "1"; "1"; "0"; "0"; "0"; "0"; "40 ns"; "0 ns"; "0 ns"; "40 ns"; "40 ns"; ""] +:+ nl_s +:+
    String.concat tab_s ["k"; "0"; "0"; "0"; "0"; "0"; "0"; "0 ns"; "0 ns"; "0 ns"; "0 ns"; "0 ns"; ""] +:+ nl_s ∧
  y_text "count" "ob" 24 = String.concat tab_s job_columns +:+ nl_s +:+
    String.concat tab_s ["job"; "1"; "1"; "0"; "0"; "0"; "0"; "40 ns"; "0 ns"; "0 ns"; "40 ns"; "40 ns"; ""] +:+ nl_s.
Proof. split; by vm_compute. Qed.
Lemma y_ordered x : handler_overall (map pa_ia (hd_pub y_end)) = Some x → y_order ≡ₚ map_to_list (ia_jobs x).
Proof. intros E. unfold y_order. by rewrite E. Qed.
Definition y_row1 : ajob := AJob "job" 1 1 0 0 0 0 40 (S754_finite false 7036874417766400 (-42)) 0 40 (S754_finite false 5629499534213120 (-47)) (S754_zero false).
Definition y_row2 : ajob := AJob "k" 0 0 0 0 0 0 0 (S754_zero false) 0 0 (S754_zero false) (S754_zero false).
Lemma y_legible r : r ∈ default [] (y_answer "name" "" 24) → legible r.
Proof.
  assert (E : default [] (y_answer "name" "" 24) = [y_row1; y_row2]) by (by vm_compute). rewrite E. clear E.
  assert (I : ∀ n, 0 ≤ n < 100 → in_int64 n) by (unfold in_int64; lia).
  intros Hr. apply elem_of_cons in Hr as [-> |Hr]; [|apply elem_of_list_singleton in Hr as ->].
  all: split; [by apply tidyb_tidy|]; split; [|repeat constructor].
  all: split; [repeat (constructor; [apply I; cbn; lia|]); constructor|].
  - split; [exists 40|exists 0]; (split; [|apply I; lia]); [|done]. intros a <-. split; [done|]. rewrite decide_False by lia. done.
  - split; exists 0; (split; [done|apply I; lia]).
Qed.
