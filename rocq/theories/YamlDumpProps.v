(** C93: an exported configuration can be loaded again. *)
From Coq Require Import String.
From Verif Require Import Base Config ConfigSpec ConfigFacts YamlDump YamlDumpSpec YamlDumpFacts.
Local Open Scope string_scope.

(** The export succeeds, loading it into any object with the same declared fields
    succeeds; then all declared fields, at all levels, have the exported values, and
    attributes that are not declared fields keep those of the object loaded into. *)
Theorem C93_round_trip lit o o2 : storable o -> same_fields o o2 ->
  exists f o', dump_to_yaml_template o = Ok f /\ load_from_yaml lit f o2 = Ok o' /\
    (forall p v, declared p o -> obj_path p o = Some v -> is_obj v = false -> obj_path p o' = Some v) /\
    (forall p ts a k r, declared p o -> obj_path p o = Some (VObj ts a) -> ~ In k (map fst ts) -> obj_path (p ++ k :: r) o' = obj_path (p ++ k :: r) o2).
Proof. apply round_trip. Qed.
(** Loading an export into the exported object changes no value. *)
Corollary C93_into_itself lit o : storable o ->
  exists f o', dump_to_yaml_template o = Ok f /\ load_from_yaml lit f o = Ok o' /\
    (forall p v, declared p o -> obj_path p o = Some v -> is_obj v = false -> obj_path p o' = Some v) /\
    (forall p ts a k r, declared p o -> obj_path p o = Some (VObj ts a) -> ~ In k (map fst ts) -> obj_path (p ++ k :: r) o' = obj_path (p ++ k :: r) o).
Proof. intros H. apply round_trip; [exact H|]. intros p ts a _ E. exists a. exact E. Qed.
(** An array in a field declared as a list (numbers of sensors per node, once a layout or a
    random network has set them) comes back as a list. *)
Theorem C93_array_in_list_field_refuted : exists o f o', dump_to_yaml_template o = Ok f /\ load_from_yaml (fun _ => Err ValueError) f o = Ok o' /\
  obj_path ["wasnParams"; "nSensorPerNode"] o = Some (VArr [VAtom 2; VAtom 3]) /\ obj_path ["wasnParams"; "nSensorPerNode"] o' = Some (VList [VAtom 2; VAtom 3]).
Proof.
  exists (VObj [("wasnParams", false)] [("wasnParams", VObj [("nSensorPerNode", false)] [("nSensorPerNode", VArr [VAtom 2; VAtom 3])])]).
  do 2 eexists. split; [vm_compute; reflexivity|]. split; [vm_compute; reflexivity|]. split; reflexivity.
Qed.
(** A string that looks like a list does not come back. *)
Theorem C93_bracketed_string_refuted : exists o f, dump_to_yaml_template o = Ok f /\ obj_path ["folder"] o = Some (VStr "[old]") /\
  forall lit o', load_from_yaml lit f o = Ok o' -> obj_path ["folder"] o' <> Some (VStr "[old]").
Proof.
  exists (VObj [("folder", false)] [("folder", VStr "[old]")]). eexists. split; [vm_compute; reflexivity|]. split; [reflexivity|].
  intros lit o'. unfold load_from_yaml. cbn. destruct (lit "[old]") as [l|]; cbn; [|discriminate]. intros H. injection H as <-. cbn. discriminate.
Qed.

Definition c93_obj : val :=
  VObj [("seed", false); ("wasn", false)]
    [("wasn", VObj [("sensors", false); ("SROs", true); ("name", false)] [("sensors", VList [VAtom 1; VAtom 3]); ("SROs", VArr [VAtom 0; VAtom 50]); ("name", VStr "room"); ("derived", VAtom 5)]); ("seed", VAtom 7)].
Definition c93_other : val :=
  VObj [("seed", false); ("wasn", false)]
    [("seed", VAtom 0); ("wasn", VObj [("sensors", false); ("SROs", true); ("name", false)] [("derived", VAtom 0); ("name", VStr ""); ("sensors", VList []); ("SROs", VArr [])])].
Example C93_ex_storable : storable c93_obj /\ same_fields c93_obj c93_other.
Proof.
  split; [split; [reflexivity|]|].
  - intros p v Hd Hp. destruct p as [|k p]; [cbn in Hp; injection Hp as <-; split; [repeat constructor; cbn; intuition discriminate | intros k [<-|[<-|[]]]; discriminate]|].
    cbn [declared c93_obj map fst In] in Hd. destruct Hd as [[<-|[<-|[]]] Hd]; cbn in Hd, Hp.
    + destruct p as [|k p]; [|destruct Hd]. cbn in Hp. injection Hp as <-. exact I.
    + destruct p as [|k p]; [cbn in Hp; injection Hp as <-; split; [repeat constructor; cbn; intuition discriminate | intros k [<-|[<-|[<-|[]]]]; discriminate]|].
      cbn [declared map fst In] in Hd. destruct Hd as [[<-|[<-|[<-|[]]]] Hd]; cbn in Hd, Hp; (destruct p as [|k p]; [|destruct Hd]); cbn in Hp; injection Hp as <-; reflexivity.
  - intros p ts a Hd Hp. destruct p as [|k p]; [cbn in Hp; injection Hp as <- <-; eexists; reflexivity|].
    cbn [declared c93_obj map fst In] in Hd. destruct Hd as [[<-|[<-|[]]] Hd]; cbn in Hd, Hp.
    + destruct p as [|k p]; [discriminate | destruct Hd].
    + destruct p as [|k p]; [cbn in Hp; injection Hp as <- <-; eexists; reflexivity|].
      cbn [declared map fst In] in Hd. destruct Hd as [[<-|[<-|[<-|[]]]] Hd]; cbn in Hd, Hp; (destruct p as [|k p]; [discriminate | destruct Hd]).
Qed.
Example C93_ex : exists f o', dump_to_yaml_template c93_obj = Ok f /\ load_from_yaml (fun _ => Err ValueError) f c93_other = Ok o' /\
  dict_path ["wasn"; "SROs"] f = Some (VList [VAtom 0; VAtom 50]) /\ obj_path ["wasn"; "SROs"] o' = Some (VArr [VAtom 0; VAtom 50]) /\
  obj_path ["wasn"; "sensors"] o' = Some (VList [VAtom 1; VAtom 3]) /\ obj_path ["wasn"; "derived"] o' = Some (VAtom 0).
Proof. do 2 eexists. split; [vm_compute; reflexivity|]. split; [vm_compute; reflexivity|]. repeat split. Qed.

Print Assumptions C93_round_trip.
Print Assumptions C93_into_itself.
Print Assumptions C93_array_in_list_field_refuted.
Print Assumptions C93_bracketed_string_refuted.
