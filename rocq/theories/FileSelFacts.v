(** Facts about the selection of files. *)
From Coq Require Import String.
From Verif Require Import Base BaseFacts FileSel FileSelSpec.

Lemma has_In f l : has f l = true <-> In f l.
Proof. unfold has. rewrite existsb_exists. split; [intros (g & I & E); apply String.eqb_eq in E; subst; exact I|intros I; exists f; split; [exact I|apply String.eqb_refl]]. Qed.
Lemma append_length : forall a b, String.length (append a b) = String.length a + String.length b.
Proof. induction a as [|c a IH]; intros b; cbn; [reflexivity|]. rewrite IH. reflexivity. Qed.
Lemma substring_prefix_length : forall s m, m <= String.length s -> String.length (substring 0 m s) = m.
Proof. induction s as [|c s IH]; intros [|m] H; cbn in *; try reflexivity; [lia|]. rewrite IH by lia. reflexivity. Qed.
Lemma twin_longer hz f : String.length f < String.length (twin hz f).
Proof.
  unfold twin. rewrite !append_length, substring_prefix_length by lia. cbn. lia.
Qed.
Lemma twin_other hz f : twin hz f <> f.
Proof. intros E. pose proof (twin_longer hz f). rewrite E in H. lia. Qed.
Lemma remove_first_In f : forall l g, In g (remove_first f l) -> In g l.
Proof. induction l as [|h l IH]; intros g; cbn; [easy|]. destruct (String.eqb f h); [auto|]. intros [<-|I]; auto. Qed.
Lemma remove_first_other f : forall l g, In g l -> g <> f -> In g (remove_first f l).
Proof. induction l as [|h l IH]; intros g; cbn; [easy|]. intros [<-|I] N; destruct (String.eqb_spec f h); try congruence; cbn; auto. Qed.
Lemma remove_first_NoDup f : forall l, NoDup l -> NoDup (remove_first f l).
Proof. induction l as [|h l IH]; intros N; cbn; [constructor|]. inversion N; subst. destruct (String.eqb f h); [assumption|]. constructor; [intros I; apply remove_first_In in I; contradiction|auto]. Qed.
Lemma remove_first_app f : forall pre suf, ~ In f pre -> remove_first f (pre ++ f :: suf) = pre ++ suf.
Proof. induction pre as [|h pre IH]; intros suf N; cbn; [rewrite String.eqb_refl; reflexivity|]. destruct (String.eqb_spec f h) as [->|]; [exfalso; apply N; left; reflexivity|]. rewrite IH; [reflexivity|]. intros I. apply N. right. exact I. Qed.

(** an invariant kept by removing a file whose resampled version is there *)
Lemma drop_invariant hz (P : list string -> Prop) : (forall l f, P l -> In f l -> In (twin hz f) l -> P (remove_first f l)) ->
  forall fuel i l, P l -> P (drop_loop hz fuel i l).
Proof.
  intros H. induction fuel as [|fuel IH]; intros i l HP; cbn [drop_loop]; [exact HP|]. destruct (nth_error l i) as [f|] eqn:E; [|exact HP]. apply IH.
  destruct (has (twin hz f) l) eqn:T; [|exact HP]. apply H; [exact HP|eapply nth_error_In; exact E|apply has_In, T].
Qed.
Lemma candidates_invariant hz (P : list string -> Prop) files : (forall l f, P l -> In f l -> In (twin hz f) l -> P (remove_first f l)) -> P files -> P (candidates (Some hz) files).
Proof. intros H HP. exact (drop_invariant hz P H _ _ _ HP). Qed.
Lemma candidates_sub hz files g : In g (candidates hz files) -> In g files.
Proof. destruct hz as [hz|]; [|easy]. apply (candidates_invariant hz (fun l => In g l -> In g files)); [|easy]. intros l f H _ _ I. apply H, (remove_first_In f), I. Qed.
Lemma candidates_NoDup hz files : NoDup files -> NoDup (candidates hz files).
Proof. destruct hz as [hz|]; [|easy]. apply (candidates_invariant hz (fun l => NoDup files -> NoDup l)); [|easy]. intros l f H _ _ N. apply remove_first_NoDup, H, N. Qed.
Lemma candidates_version hz files f : In f files -> exists g, In g (candidates (Some hz) files) /\ version_of hz f g.
Proof.
  intros I. apply (candidates_invariant hz (fun l => exists g, In g l /\ version_of hz f g)); [|exists f; split; [exact I|constructor]].
  intros l h (g & Ig & V) _ T. destruct (String.eqb_spec g h) as [->|N].
  - exists (twin hz h). split; [apply remove_first_other; [exact T|apply twin_other]|constructor; exact V].
  - exists g. split; [apply remove_first_other; assumption|exact V].
Qed.
Lemma candidates_removed hz files f : In f files -> ~ In f (candidates (Some hz) files) -> In (twin hz f) files.
Proof.
  intros I N. destruct (in_dec string_dec (twin hz f) files) as [T|T]; [exact T|exfalso]. apply N.
  apply (candidates_invariant hz (fun l => In f l /\ ~ In (twin hz f) l)); [|split; assumption].
  intros l h [A B] _ Th. split; [apply remove_first_other; [exact A|intros ->; contradiction]|]. intros C. apply B, (remove_first_In h), C.
Qed.

(** no two neighbours with a resampled version *)
Definition spread hz (all : list string) (l : list string) : Prop :=
  forall a f g b, l = a ++ f :: g :: b -> ~ (In (twin hz f) all /\ In (twin hz g) all).
Lemma drop_spread hz all : forall fuel pre suf, length suf <= fuel -> NoDup (pre ++ suf) -> (forall f, In f (pre ++ suf) -> In f all) -> spread hz all suf ->
  (forall f, In f pre -> ~ In (twin hz f) (pre ++ suf)) ->
  forall f, In f (drop_loop hz fuel (length pre) (pre ++ suf)) -> ~ In (twin hz f) (drop_loop hz fuel (length pre) (pre ++ suf)).
Proof.
  induction fuel as [|fuel IH]; intros pre suf L N S D Q.
  { destruct suf; [|cbn in L; lia]. cbn [drop_loop]. rewrite app_nil_r in *. exact Q. }
  cbn [drop_loop]. destruct suf as [|x suf].
  { rewrite app_nil_r in *. rewrite (proj2 (nth_error_None pre (length pre)) (le_n _)). exact Q. }
  rewrite nth_error_app2, Nat.sub_diag by lia. cbn [nth_error]. destruct (has (twin hz x) (pre ++ x :: suf)) eqn:T.
  - apply has_In in T. pose proof (NoDup_remove _ _ _ N) as [N' X]. rewrite remove_first_app by (intros C; apply X, in_or_app; left; exact C).
    assert (Q' : forall f, In f pre -> ~ In (twin hz f) (pre ++ suf)).
    { intros f I C. apply (Q f I). apply in_app_or in C. apply in_or_app. destruct C as [C|C]; [left; exact C|right; right; exact C]. }
    assert (S' : forall f, In f (pre ++ suf) -> In f all) by (intros f C; apply S; apply in_app_or in C; apply in_or_app; destruct C as [C|C]; [left; exact C|right; right; exact C]).
    destruct suf as [|y suf].
    + rewrite app_nil_r in *. assert (E : drop_loop hz fuel (Datatypes.S (length pre)) pre = pre). { destruct fuel; [reflexivity|]. cbn [drop_loop]. rewrite (proj2 (nth_error_None pre (Datatypes.S (length pre)))) by lia. reflexivity. } rewrite E. exact Q'.
    + replace (Datatypes.S (length pre)) with (length (pre ++ [y])) by (rewrite app_length; cbn; lia). replace (pre ++ y :: suf) with ((pre ++ [y]) ++ suf) in * by (rewrite <- app_assoc; reflexivity).
      apply IH; [cbn in L; lia|exact N'|exact S'| |].
      * intros a f g b E. apply (D (x :: y :: a) f g b). rewrite E. reflexivity.
      * intros f I. apply in_app_or in I. destruct I as [I|[<-|[]]]; [apply Q', I|]. intros C. apply (D [] x y suf eq_refl). split; [apply S, T|apply S', C].
  - replace (Datatypes.S (length pre)) with (length (pre ++ [x])) by (rewrite app_length; cbn; lia). replace (pre ++ x :: suf) with ((pre ++ [x]) ++ suf) in * by (rewrite <- app_assoc; reflexivity).
    apply IH; [cbn in L; lia|exact N|exact S| |].
    + intros a f g b E. apply (D (x :: a) f g b). rewrite E. reflexivity.
    + intros f I. apply in_app_or in I. destruct I as [I|[<-|[]]]; [apply Q, I|]. intros C. apply has_In in C. congruence.
Qed.
Lemma select_ok hz files n draws : NoDup files -> possible_draws (length (candidates hz files)) n draws ->
  exists r, select hz files n draws = Ok r /\ length r = n /\ NoDup r /\ forall f, In f r -> In f (candidates hz files).
Proof.
  intros N (L & D & B). set (c := candidates hz files) in *. pose proof (candidates_NoDup hz files N) as Nc. fold c in Nc.
  assert (Ln : n <= length c). { rewrite <- L, <- (seq_length (length c) 0). apply NoDup_incl_length; [exact D|]. intros i I. apply in_seq. specialize (B i I). lia. }
  unfold select. fold c. rewrite (proj2 (Nat.leb_le n (length c)) Ln).
  assert (M : forall l, (forall i, In i l -> i < length c) -> mapM (get c) l = Ok (map (fun i => nth i c EmptyString) l)).
  { induction l as [|i l IH]; intros Hl; [reflexivity|]. cbn [mapM map]. rewrite (IH (fun j I => Hl j (or_intror I))). unfold get. rewrite (nth_error_nth' c EmptyString) by (apply Hl; left; reflexivity). reflexivity. }
  rewrite (M draws B). eexists. split; [reflexivity|]. rewrite map_length. split; [exact L|]. split.
  - clear L. induction draws as [|i l IH]; [constructor|]. inversion D; subst. cbn [map]. constructor; [|apply IH; [assumption|intros j I; apply B; right; exact I]].
    intros I. apply in_map_iff in I. destruct I as (j & E & I). assert (j = i); [|subst; contradiction]. apply (proj1 (NoDup_nth c EmptyString) Nc); [apply B; right; exact I|apply B; left; reflexivity|exact E].
  - intros f I. apply in_map_iff in I. destruct I as (j & <- & I). apply nth_In, B, I.
Qed.
