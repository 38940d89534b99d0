(** The exchange of samples does not look at their values: it commutes with any
    function applied to all samples. *)
From Verif Require Import Base BaseFacts Sched Buffers.

Definition rmap {A B} (f : A -> B) (r : res A) : res B := match r with Ok a => Ok (f a) | Err e => Err e end.

Lemma get_map {A B} (f : A -> B) l i : get (map f l) i = rmap f (get l i).
Proof. unfold get. rewrite nth_error_map. now destruct (nth_error l i). Qed.
Lemma upd_map {A B} (f : A -> B) i x l : upd i (f x) (map f l) = map f (upd i x l).
Proof. revert i; induction l as [|a l IH]; intros [|i]; cbn; try reflexivity. now rewrite IH. Qed.
Lemma py_from_map {A B} (f : A -> B) a l : py_from a (map f l) = map f (py_from a l).
Proof. unfold py_from. rewrite map_length. apply skipn_map. Qed.
Lemma py_upto_map {A B} (f : A -> B) a l : py_upto a (map f l) = map f (py_upto a l).
Proof. unfold py_upto. rewrite map_length. apply firstn_map. Qed.
Lemma py_slice_map {A B} (f : A -> B) a b l : py_slice a b (map f l) = map f (py_slice a b l).
Proof. unfold py_slice, slice. now rewrite map_length, skipn_map, firstn_map. Qed.
Lemma repeat_map {A B} (f : A -> B) z n : map f (repeat z n) = repeat (f z) n.
Proof. induction n; cbn; congruence. Qed.
Lemma mapM_rmap {A B C} (f : B -> C) (g : A -> res B) l : mapM (fun x => rmap f (g x)) l = rmap (map f) (mapM g l).
Proof. induction l as [|a l IH]; cbn; [reflexivity|]. destruct (g a); cbn; [|reflexivity]. rewrite IH. now destruct (mapM g l). Qed.

Section Nat.
  Context {A B : Type} (f : A -> B) (zA : A) (zB : B) (fz : f zA = zB).
  Definition bufmap : buffers A -> buffers B := map (map (map f)).
  Definition bmap (st : bstate A) : bstate B :=
    mkB (bufmap (b_buf st)) (map (map (map f)) (b_z st)) (b_i st) (b_last st) (b_log st).

  Lemma nat_chunk z n : chunk_to_send (map f z) n = map f (chunk_to_send z n).
  Proof. unfold chunk_to_send. destruct (n <? 0)%Z; [apply py_from_map|]. destruct (0 <? n)%Z; [apply py_upto_map|reflexivity]. Qed.
  Lemma nat_fill_one nb k ch bufs q : fill_one nb k (map f ch) (bufmap bufs) q = rmap bufmap (fill_one nb k ch bufs q).
  Proof.
    unfold fill_one, bufmap. destruct (get nb q) as [nq|]; cbn; [|reflexivity]. destruct (index_of k nq) as [i|]; cbn; [|reflexivity].
    rewrite get_map. destruct (get bufs q) as [bq|]; cbn; [|reflexivity]. rewrite get_map. destruct (get bq i) as [b|]; cbn; [|reflexivity].
    now rewrite <- map_app, upd_map, upd_map.
  Qed.
  Lemma nat_fill_all nb k ch qs : forall bufs, fill_all nb k (map f ch) qs (bufmap bufs) = rmap bufmap (fill_all nb k ch qs bufs).
  Proof.
    induction qs as [|q qs IH]; intros bufs; cbn; [reflexivity|]. rewrite nat_fill_one. destruct (fill_one nb k ch bufs q); cbn; [apply IH|reflexivity].
  Qed.
  Lemma nat_fill nb k ch bufs : fill_buffers nb k (map f ch) (bufmap bufs) = rmap bufmap (fill_buffers nb k ch bufs).
  Proof. unfold fill_buffers. destruct (get nb k); cbn; [apply nat_fill_all|reflexivity]. Qed.
  Lemma nat_broadcast p nodes z t k st :
    broadcast p nodes (fun _ _ _ => map f z) t k (bmap st) = rmap bmap (broadcast p nodes (fun _ _ _ => z) t k st).
  Proof.
    unfold broadcast. destruct (get nodes k) as [nd|]; cbn [bind rmap]; [|reflexivity]. destruct (p_whole p).
    - rewrite nat_chunk. cbn [bmap b_buf]. rewrite nat_fill. now destruct (fill_buffers _ _ _ (b_buf st)).
    - cbn [bmap b_last b_buf]. destruct (get (b_last st) k); cbn [bind rmap]; [|reflexivity].
      rewrite nat_chunk, nat_fill. now destruct (fill_buffers _ _ _ (b_buf st)).
  Qed.
  Lemma nat_assemble fi N Ns prev buf :
    assemble zB fi N Ns (map f prev) (map f buf) = rmap (fun r => (map f (fst r), snd r)) (assemble zA fi N Ns prev buf).
  Proof.
    unfold assemble. rewrite !map_length, !py_from_map, <- fz.
    assert (E : forall n l, repeat (f zA) n ++ map f l = map f (repeat zA n ++ l)) by (intros; now rewrite map_app, repeat_map).
    rewrite E, <- map_app.
    destruct fi.
    - destruct (Z.of_nat (length buf) =? N)%Z eqn:E1; cbn [fst snd].
      + rewrite map_length, E1. reflexivity.
      + destruct (Z.of_nat (length buf) <? N)%Z; cbn [fst snd]; rewrite map_length;
        match goal with |- context [if ?b then _ else _] => destruct b end; reflexivity.
    - destruct (0 <? N - Z.of_nat (length buf))%Z; cbn [fst snd]; rewrite map_length;
        match goal with |- context [if ?b then _ else _] => destruct b end; reflexivity.
  Qed.
  Lemma nat_read nb N Ns k st : read_buffers zB nb N Ns k (bmap st) = rmap bmap (read_buffers zA nb N Ns k st).
  Proof.
    unfold read_buffers. destruct (get nb k) as [nk|]; cbn [bind rmap]; [|reflexivity].
    cbn [bmap b_buf b_z b_i b_last b_log]. unfold bufmap. rewrite !get_map.
    destruct (get (b_buf st) k) as [bk|]; cbn [bind rmap]; [|reflexivity].
    destruct (get (b_z st) k) as [zk|]; cbn [bind rmap]; [|reflexivity].
    destruct (get (b_i st) k) as [ik|]; cbn [bind rmap]; [|reflexivity].
    set (F := fun idx : nat => do b <- get bk idx; do pz <- (if Nat.eqb ik 0 || negb (0 <? N - Z.of_nat (length b))%Z then Ok [] else get zk idx); assemble zA (Nat.eqb ik 0) N Ns pz b).
    rewrite (mapM_ext _ (fun idx => rmap (fun r => (map f (fst r), snd r)) (F idx))).
    - rewrite mapM_rmap. destruct (mapM F _) as [cols|]; cbn [bind rmap]; [|reflexivity].
      f_equal. unfold bmap, bufmap. cbn. f_equal.
      + rewrite <- upd_map, map_map. reflexivity.
      + rewrite map_map. cbn. rewrite <- upd_map, map_map. reflexivity.
      + now rewrite map_map.
    - intros idx _. unfold F. rewrite get_map. destruct (get bk idx) as [b|]; cbn [bind rmap]; [|reflexivity]. rewrite map_length.
      destruct (_ || _).
      + cbn [bind]. exact (nat_assemble _ N Ns [] b).
      + rewrite get_map. destruct (get zk idx); cbn [bind rmap]; [apply nat_assemble|reflexivity].
  Qed.
End Nat.
