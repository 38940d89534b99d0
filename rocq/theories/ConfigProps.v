(** Properties of the configuration helpers: loading from YAML (C46), equality (C47),
    export folder (C48). *)
From Verif Require Import Base BaseFacts Config ConfigSpec ConfigFacts.
From Coq Require Import String QArith Qabs Lqa.
Local Open Scope string_scope.

(** ** C46 *)
(** A value of the file, at any depth, ends up in the object at the same path, with
    bracketed strings read as lists and lists turned into arrays where the field is
    declared as an array. *)
Theorem C46_file_values_are_loaded lit d o o' p v :
  unique_keys d -> load_from_yaml lit d o = Ok o' -> p <> [] -> dict_path p d = Some v -> is_dict v = false ->
  exists w, converts lit (array_field p o) v w /\ obj_path p o' = Some w.
Proof. apply load_leaf. Qed.
(** What is not in the file keeps its value. *)
Theorem C46_other_fields_are_kept lit d o o' p :
  unique_keys d -> load_from_yaml lit d o = Ok o' -> absent p d -> obj_path p o' = obj_path p o.
Proof. apply load_absent. Qed.
(** The files accepted. *)
Theorem C46_accepted_files lit d o : unique_keys d -> ((exists o', load_from_yaml lit d o = Ok o') <-> fits lit d o).
Proof. intros H. symmetry. apply load_fits. exact H. Qed.
(** A misspelt name of a number, boolean or plain string is accepted: a new attribute
    appears. *)
Theorem C46_unknown_names_refuted : exists d o o', unique_keys d /\ load_from_yaml (fun _ => Err ValueError) d o = Ok o' /\
  dict_path ["refernceSensor"] d = Some (VAtom 1) /\ array_field ["refernceSensor"] o = false /\ obj_path ["refernceSensor"] o = None /\ obj_path ["referenceSensor"] o' = Some (VAtom 0).
Proof.
  exists (VDict [("refernceSensor", VAtom 1)]), (VObj [("referenceSensor", false)] [("referenceSensor", VAtom 0)]). eexists. split; [|vm_compute; repeat split].
  intros [|k p] kvs; cbn [dict_path]; [intros H; injection H as <-; repeat constructor; intros []|]. cbn [assoc]. destruct (String.eqb _ k); [|discriminate]. destruct p; cbn; discriminate.
Qed.

Local Ltac splits := repeat match goal with |- _ /\ _ => split end; cbn [wf_attrs map fst]; repeat match goal with |- _ /\ _ => split | |- True => exact I | |- NoDup _ => constructor end; try (cbn; intuition discriminate); try reflexivity; try discriminate.
Definition c46_lit (s : string) : res (list val) := if String.eqb s "[1, 2]" then Ok [VAtom 1; VAtom 2] else Err ValueError.
Definition c46_obj : val :=
  VObj [("wasn", false); ("seed", false)]
    [("wasn", VObj [("sensors", false); ("SROs", true)] [("sensors", VList []); ("SROs", VArr []); ("fs", VAtom 16000)]); ("seed", VAtom 7)].
Definition c46_file : val := VDict [("wasn", VDict [("sensors", VStr "[1, 2]"); ("SROs", VList [VAtom 0; VAtom 50])])].
Example C46_example :
  load_from_yaml c46_lit c46_file c46_obj
  = Ok (VObj [("wasn", false); ("seed", false)]
          [("wasn", VObj [("sensors", false); ("SROs", true)] [("sensors", VList [VAtom 1; VAtom 2]); ("SROs", VArr [VAtom 0; VAtom 50]); ("fs", VAtom 16000)]); ("seed", VAtom 7)])
  /\ absent ["wasn"; "fs"] c46_file /\ absent ["seed"] c46_file /\ dict_path ["wasn"; "SROs"] c46_file = Some (VList [VAtom 0; VAtom 50])
  /\ array_field ["wasn"; "SROs"] c46_obj = true
  /\ load_from_yaml c46_lit (VDict [("sros", VList [])]) c46_obj = Err KeyError
  /\ load_from_yaml c46_lit (VDict [("wsn", VDict [])]) c46_obj = Err AttributeError.
Proof. vm_compute. repeat split. Qed.

(** ** C47 *)
(** For two objects of the same class (same attributes, arrays and sub-objects at the
    same places) the helper answers whether they agree, arrays up to the tolerance. *)
Theorem C47_agreement a b l : same_class a b = true -> wf_attrs a -> a = FObj l -> exists r, eqd a b = Ok r /\ (r = true <-> close_to a b).
Proof. intros H1 H2 H3. apply eqd_close; [exact H1 | exact H2 | exists l; exact H3]. Qed.
Theorem C47_reflexive l : wf_attrs (FObj l) -> eqd (FObj l) (FObj l) = Ok true.
Proof.
  intros H. destruct (eqd_close (FObj l) (FObj l) (same_refl _) H ltac:(eexists; reflexivity)) as (r & Hr & Hc). rewrite Hr. f_equal. apply Hc. apply close_refl.
Qed.
(** Without arrays it is equality. *)
Theorem C47_equality_without_arrays a b l : same_class a b = true -> wf_attrs a -> a = FObj l -> array_free a = true -> (eqd a b = Ok true <-> a = b).
Proof.
  intros H1 H2 H3 H4. destruct (C47_agreement a b l H1 H2 H3) as (r & Hr & Hc). rewrite Hr. rewrite <- (close_array_free a b H4), <- Hc. split; congruence.
Qed.
(** With arrays: unequal objects compare equal, and the order matters, even within one
    class. *)
Theorem C47_unequal_arrays_refuted : exists a b, same_class a b = true /\ wf_attrs a /\ wf_attrs b /\ a <> b /\ eqd a b = Ok true /\ eqd b a = Ok true.
Proof.
  exists (FObj [("delays", FArr [1%nat] [0%Q])]), (FObj [("delays", FArr [1%nat] [1 # 1000000000])]).
  splits.
Qed.
Theorem C47_symmetry_refuted : exists a b, same_class a b = true /\ wf_attrs a /\ wf_attrs b /\ eqd a b = Ok true /\ eqd b a = Ok false.
Proof.
  exists (FObj [("delays", FArr [1%nat] [100000 # 1])]), (FObj [("delays", FArr [1%nat] [9999899999999 # 100000000])]).
  splits.
Qed.
(** Attributes only the second object has are not looked at; attributes only the first
    has raise. *)
Theorem C47_extra_attributes_refuted : exists a b, wf_attrs a /\ wf_attrs b /\ eqd a b = Ok true /\ eqd b a = Err KeyError.
Proof.
  exists (FObj [("x", FAtom 1)]), (FObj [("x", FAtom 1); ("y", FAtom 2)]). splits.
Qed.

Definition c47_a : fv := FObj [("danse", FObj [("mu", FArr [2%nat] [1 # 2; 3 # 4]); ("n", FAtom 3)]); ("seed", FAtom 1)].
Definition c47_b : fv := FObj [("danse", FObj [("mu", FArr [2%nat] [1 # 2; 3 # 4]); ("n", FAtom 4)]); ("seed", FAtom 1)].
Example C47_example : same_class c47_a c47_b = true /\ wf_attrs c47_a /\ eqd c47_a c47_b = Ok false /\ eqd c47_a c47_a = Ok true.
Proof. unfold c47_a, c47_b. splits. Qed.

(** ** C48 *)
Definition answered (choices inputs : list string) : Prop :=
  exists bad ans rest, inputs = (bad ++ ans :: rest)%list /\ In ans choices /\ forall b, In b bad -> ~ In b ["y"; "Y"; "n"; "N"].
(** The run goes ahead into a folder with data only on request or with consent. *)
Theorem C48_consent bypass over e es inputs st' : check_export_folder bypass over (FsDir (e :: es)) inputs = Ok (true, st') ->
  bypass = true \/ over = true \/ answered ["y"; "Y"] inputs.
Proof.
  unfold check_export_folder. destruct bypass; [left; reflexivity|]. destruct over; [right; left; reflexivity|]. intros H. right. right.
  destruct (ask inputs) as [i|] eqn:E; [|discriminate]. cbn [bind] in H. destruct (existsb (String.eqb i) ["n"; "N"]) eqn:En; [discriminate|].
  apply ask_spec in E. destruct E as (bad & rest & -> & Hi & Hb). exists bad, i, rest. split; [reflexivity|]. split; [|exact Hb].
  destruct Hi as [<-|[<-|[<-|[<-|[]]]]]; [left; reflexivity | right; left; reflexivity | discriminate | discriminate].
Qed.
(** The only changes: a missing folder is created, a folder is wiped after consent;
    what the system refuses to delete stays. *)
Theorem C48_changes bypass over st inputs go st' : check_export_folder bypass over st inputs = Ok (go, st') ->
  st' = st \/ (st = FsNone /\ st' = FsDir [] /\ bypass = false) \/
  exists entries, st = FsDir entries /\ entries <> [] /\ bypass = false /\ over = false /\ go = true /\ answered ["y"; "Y"] inputs /\
    exists left_, st' = FsDir left_ /\ forall e, In e left_ <-> In e entries /\ snd e = false.
Proof.
  intros H. destruct bypass eqn:Eb; [injection H as _ <-; left; reflexivity|]. unfold check_export_folder in H. destruct st as [| |entries]; [injection H as _ <-; right; left; repeat split | discriminate|].
  destruct over eqn:Eo; [injection H as _ <-; left; reflexivity|]. destruct entries as [|e es]; [injection H as _ <-; left; reflexivity|].
  pose proof (C48_consent false false e es inputs st') as C. unfold check_export_folder in C.
  destruct (ask inputs) as [i|] eqn:E; [|discriminate]. cbn [bind] in H, C. destruct (existsb (String.eqb i) ["n"; "N"]) eqn:En; [injection H as _ <-; left; reflexivity|].
  injection H as <- <-. right. right. exists (e :: es). split; [reflexivity|]. split; [discriminate|]. split; [reflexivity|]. split; [reflexivity|]. split; [reflexivity|].
  split; [destruct (C eq_refl) as [X|[X|X]]; [discriminate | discriminate | exact X]|]. exists (wipe_folder (e :: es)). split; [reflexivity|]. intros e0. unfold wipe_folder. rewrite filter_In, Bool.negb_true_iff. reflexivity.
Qed.
(** With a refusal as first valid answer nothing happens. *)
Theorem C48_refusal e es inputs : answered ["n"; "N"] inputs -> check_export_folder false false (FsDir (e :: es)) inputs = Ok (false, FsDir (e :: es)).
Proof.
  intros (bad & ans & rest & H & Hi & Hb). assert (E : ask inputs = Ok ans).
  { apply ask_spec. exists bad, rest. split; [exact H|]. split; [|exact Hb]. destruct Hi as [<-|[<-|[]]]; cbn; tauto. }
  unfold check_export_folder. rewrite E. destruct Hi as [<-|[<-|[]]]; reflexivity.
Qed.

Example C48_example :
  check_export_folder false false (FsDir [("a.pkl", true); ("locked", false)]) ["maybe"; "y"; "n"] = Ok (true, FsDir [("locked", false)])
  /\ answered ["y"; "Y"] ["maybe"; "y"; "n"]
  /\ check_export_folder false false (FsDir [("a.pkl", true)]) ["yes"; "N"] = Ok (false, FsDir [("a.pkl", true)])
  /\ answered ["n"; "N"] ["yes"; "N"].
Proof.
  split; [reflexivity|]. split; [exists ["maybe"], "y", ["n"]; repeat split; cbn; intuition (subst; try discriminate; intuition discriminate)|]. split; [reflexivity|].
  exists ["yes"], "N", []; repeat split; cbn; intuition (subst; try discriminate; intuition discriminate).
Qed.

Print Assumptions C46_file_values_are_loaded.
Print Assumptions C46_other_fields_are_kept.
Print Assumptions C46_accepted_files.
Print Assumptions C46_unknown_names_refuted.
Print Assumptions C47_agreement.
Print Assumptions C47_reflexive.
Print Assumptions C47_equality_without_arrays.
Print Assumptions C47_unequal_arrays_refuted.
Print Assumptions C47_symmetry_refuted.
Print Assumptions C47_extra_attributes_refuted.
Print Assumptions C48_consent.
Print Assumptions C48_changes.
Print Assumptions C48_refusal.
