(** Theorems about the random selection of noise files (C84). *)
From Coq Require Import String Ascii.
From Verif Require Import Base FileSel FileSelSpec FileSelFacts.
Local Open Scope string_scope.
Local Open Scope list_scope.

(** The name of the resampled version of a file. *)
Theorem C84_resampled_name hz base : twin hz (append base ".wav") = append base (append "_" (append hz "Hz.wav")).
Proof.
  unfold twin. f_equal. rewrite append_length. cbn [String.length]. replace (String.length base + 4 - 4) with (String.length base) by lia.
  induction base as [|c base IH]; [reflexivity|]. cbn. rewrite IH. reflexivity.
Qed.
(** As many files as asked for, all different and all from the folder; an error if there
    are too few left to choose from. *)
Theorem C84_selected hz files n draws : NoDup files ->
  (possible_draws (length (candidates hz files)) n draws -> exists r, select hz files n draws = Ok r /\ length r = n /\ NoDup r /\ forall f, In f r -> In f files) /\
  (length files < n -> select hz files n draws = Err ValueError).
Proof.
  intros N. split.
  - intros D. destruct (select_ok hz files n draws N D) as (r & E & L & R & I). exists r. repeat split; try assumption. intros f H. apply (candidates_sub hz), I, H.
  - intros H. unfold select. assert (C : length (candidates hz files) <= length files) by (apply NoDup_incl_length; [apply candidates_NoDup, N|intros f; apply candidates_sub]).
    rewrite (proj2 (Nat.leb_gt n (length (candidates hz files)))) by lia. reflexivity.
Qed.
(** Every file can be drawn: for every file left to choose from there are draws with it. *)
Theorem C84_any_candidate hz files f : In f (candidates hz files) -> exists draws, possible_draws (length (candidates hz files)) 1 draws /\ select hz files 1 draws = Ok [f].
Proof.
  intros I. destruct (In_nth _ _ EmptyString I) as (i & Hi & E). exists [i]. split; [split; [reflexivity|]; split; [constructor; [intros []|constructor]|intros j [<-|[]]; exact Hi]|].
  unfold select. destruct (Nat.leb_spec 1 (length (candidates hz files))); [|lia]. cbn [mapM]. unfold get. rewrite (nth_error_nth' _ EmptyString Hi), E. reflexivity.
Qed.
(** No noise is lost: of every file a version can still be chosen, and only files with a
    resampled version in the folder are left out. *)
Theorem C84_no_noise_lost hz files f : In f files ->
  (exists g, In g (candidates (Some hz) files) /\ version_of hz f g) /\ (~ In f (candidates (Some hz) files) -> In (twin hz f) files).
Proof. intros I. split; [apply candidates_version, I|apply candidates_removed, I]. Qed.
(** If no two files that follow each other in the folder both have a resampled version,
    no file can be chosen together with its resampled version. *)
Theorem C84_no_duplicates hz files f : NoDup files -> 
  (forall a g h b, files = a ++ g :: h :: b -> ~ (In (twin hz g) files /\ In (twin hz h) files)) ->
  In f (candidates (Some hz) files) -> ~ In (twin hz f) (candidates (Some hz) files).
Proof. intros N S. apply (drop_spread hz files (length files) [] files (le_n _) N); [easy|exact S|easy]. Qed.
(** In general it can. *)
Theorem C84_duplicates_refuted : exists hz files n draws r f, NoDup files /\ possible_draws (length (candidates (Some hz) files)) n draws /\
  select (Some hz) files n draws = Ok r /\ In f r /\ In (twin hz f) r.
Proof.
  exists "16000", ["a.wav"; "b.wav"; "a_16000Hz.wav"; "b_16000Hz.wav"], 2, [0; 2], ["b.wav"; "b_16000Hz.wav"], "b.wav". split; [repeat constructor; cbn; intuition discriminate|].
  split; [|split; [reflexivity|cbn; auto]]. split; [reflexivity|]. split; [repeat constructor; cbn; intuition discriminate|]. cbn. intros i [<-|[<-|[]]]; repeat constructor.
Qed.

(** The noise files are taken from a folder exactly if the option is ["loadfrom "] followed
    by the folder. *)
Theorem C84_option option : load_from option = true <-> exists folder, option = append "loadfrom " folder.
Proof.
  unfold load_from. rewrite String.eqb_eq. change 9 with (String.length "loadfrom "). rewrite <- prefix_correct. split.
  - generalize "loadfrom ". intros s. revert option. induction s as [|a s IH]; intros o H; [exists o; reflexivity|]. destruct o as [|b o]; cbn [prefix] in H; [discriminate|].
    destruct (ascii_dec a b) as [->|]; [|discriminate]. destruct (IH o H) as (f & ->). exists f. reflexivity.
  - intros (f & ->). generalize "loadfrom ". intros s. induction s as [|a s IH]; [destruct f; reflexivity|]. cbn [append prefix]. destruct (ascii_dec a a); [exact IH | contradiction].
Qed.

Example C84_example : candidates (Some "16000") ["a.wav"; "a_16000Hz.wav"; "b.wav"; "c.wav"] = ["a_16000Hz.wav"; "b.wav"; "c.wav"] /\
  select (Some "16000") ["a.wav"; "a_16000Hz.wav"; "b.wav"; "c.wav"] 2 [2; 0] = Ok ["c.wav"; "a_16000Hz.wav"] /\
  (forall a g h b, ["a.wav"; "a_16000Hz.wav"; "b.wav"; "c.wav"] = a ++ g :: h :: b -> ~ (In (twin "16000" g) ["a.wav"; "a_16000Hz.wav"; "b.wav"; "c.wav"] /\ In (twin "16000" h) ["a.wav"; "a_16000Hz.wav"; "b.wav"; "c.wav"])).
Proof.
  split; [reflexivity|]. split; [reflexivity|]. intros [|x [|y [|z [|w a]]]] g h b E; injection E as; subst; cbn; try (intuition discriminate).
  destruct a; discriminate.
Qed.

Print Assumptions C84_resampled_name.
Print Assumptions C84_selected.
Print Assumptions C84_any_candidate.
Print Assumptions C84_no_noise_lost.
Print Assumptions C84_no_duplicates.
Print Assumptions C84_duplicates_refuted.
Print Assumptions C84_option.
