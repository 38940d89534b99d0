(** Proofs about divisor enumeration. *)
From Verif Require Import Base BaseFacts Divis.
From Coq Require Import Znumtheory.
Open Scope Z_scope.

Lemma fold_mul l : forall a, fold_left Z.mul l a = a * prod l.
Proof.
  unfold prod. induction l as [|x l IH]; intros a; cbn [fold_left]; [ring|]. rewrite IH, (IH (1 * x)). ring.
Qed.
Lemma prod_cons x l : prod (x :: l) = x * prod l.
Proof. unfold prod at 1. cbn [fold_left]. rewrite fold_mul. ring. Qed.

(** ** Prime factors *)
Definition no_small (i n : Z) : Prop := forall d, 2 <= d < i -> ~ (d | n).

Lemma prime_of_no_small i n : 1 < n -> 2 <= i -> no_small i n -> n < i * i -> prime n.
Proof.
  intros Hn Hi Hs Hlt. apply prime_alt. split; [exact Hn|]. intros d Hd [q Hq].
  destruct (Z_lt_le_dec d i) as [Hl|Hl]; [apply (Hs d); [lia | exists q; exact Hq]|].
  apply (Hs q); [|exists d; lia]. assert (q < i) by nia. assert (1 < q) by nia. lia.
Qed.

Lemma pf_spec fuel : forall i n l, 1 <= n -> 2 <= i -> no_small i n -> pf_loop fuel i n = Ok l -> Forall prime l /\ prod l = n.
Proof.
  induction fuel as [|fuel IH]; intros i n l Hn Hi Hs H; [discriminate|]. cbn [pf_loop] in H.
  destruct (Z.leb_spec (i * i) n) as [Hle|Hgt].
  - destruct (Z.eqb_spec (n mod i) 0) as [Hm|Hm].
    + destruct (pf_loop fuel i (n / i)) as [l'|] eqn:E; [|discriminate]. cbn [bind] in H. injection H as <-.
      assert (Hd : n = i * (n / i)) by (apply Z_div_exact_full_2; lia).
      assert (Hq : 1 <= n / i) by nia.
      assert (Hs' : no_small i (n / i)).
      { intros d Hd' Hdiv. apply (Hs d Hd'). rewrite Hd. apply Z.divide_mul_r. exact Hdiv. }
      destruct (IH i (n / i) l' Hq Hi Hs' E) as [H1 H2]. split; [|rewrite prod_cons, H2; lia].
      constructor; [|exact H1]. apply prime_alt. split; [lia|]. intros d Hd' Hdiv. apply (Hs d); [lia|].
      rewrite Hd. apply Z.divide_mul_l. exact Hdiv.
    + apply (IH (i + 1) n l Hn ltac:(lia)); [|exact H]. intros d Hd' Hdiv.
      destruct (Z.eq_dec d i) as [->|Hne]; [apply Hm, Z.mod_divide; [lia | exact Hdiv] | apply (Hs d); [lia | exact Hdiv]].
  - injection H as <-. destruct (Z.ltb_spec 1 n).
    + split; [|rewrite prod_cons; unfold prod; cbn; ring]. constructor; [|constructor]. apply (prime_of_no_small i n); assumption || lia.
    + split; [constructor|]. unfold prod. cbn. lia.
Qed.

Lemma pf_fuel fuel : forall i n, 1 <= n -> 2 <= i -> (Z.to_nat (n + Z.max 0 (n - i + 1)) < fuel)%nat -> exists l, pf_loop fuel i n = Ok l.
Proof.
  induction fuel as [|fuel IH]; intros i n Hn Hi Hf; [lia|]. cbn [pf_loop].
  destruct (Z.leb_spec (i * i) n) as [Hle|Hgt]; [|eexists; reflexivity].
  assert (Hin : i < n) by nia.
  destruct (Z.eqb_spec (n mod i) 0) as [Hm|Hm].
  - assert (Hd : n = i * (n / i)) by (apply Z_div_exact_full_2; lia).
    assert (Hq : 1 <= n / i) by nia. assert (Hlt : n / i < n) by nia.
    destruct (IH i (n / i) Hq Hi) as [l Hl]; [lia|]. rewrite Hl. eexists. reflexivity.
  - apply IH; lia.
Qed.

Lemma prime_factors_spec n : 1 <= n -> exists l, prime_factors n = Ok l /\ Forall prime l /\ prod l = n.
Proof.
  intros Hn. unfold prime_factors. destruct (pf_fuel (Z.to_nat (2 * n + 1) + 1) 2 n Hn ltac:(lia)) as [l Hl]; [lia|].
  exists l. split; [exact Hl|]. refine (pf_spec (Z.to_nat (2 * n + 1) + 1) 2 n l Hn ltac:(lia) _ Hl). intros d Hd. lia.
Qed.

(** ** Counter *)
Definition total (c : list (Z * nat)) : Z := prod (map (fun kc => fst kc ^ Z.of_nat (snd kc)) c).
Lemma count_in_total c x : total (count_in c x) = total c * x.
Proof.
  unfold total. induction c as [|[k m] c IH]; cbn [count_in map fst snd].
  - rewrite prod_cons. unfold prod. cbn [fold_left]. rewrite Z.pow_1_r. ring.
  - destruct (Z.eqb_spec k x) as [->|Hne]; cbn [map fst snd]; rewrite !prod_cons.
    + rewrite Nat2Z.inj_succ, Z.pow_succ_r by lia. ring.
    + rewrite IH. ring.
Qed.
Lemma count_in_keys c x : forall k, In k (map fst (count_in c x)) <-> In k (map fst c) \/ k = x.
Proof.
  induction c as [|[k m] c IH]; intros k'; cbn [count_in map fst].
  - cbn. intuition.
  - destruct (Z.eqb_spec k x) as [->|Hne]; cbn [map fst In]; [intuition congruence|]. rewrite IH. intuition.
Qed.
Lemma count_in_nodup c x : NoDup (map fst c) -> NoDup (map fst (count_in c x)).
Proof.
  induction c as [|[k m] c IH]; cbn [count_in map fst]; intros H.
  - constructor; [intros [] | constructor].
  - apply NoDup_cons_iff in H. destruct H as [H1 H2]. destruct (Z.eqb_spec k x) as [->|Hne]; cbn [map fst]; constructor; auto.
    rewrite count_in_keys. intros [H|H]; [contradiction | congruence].
Qed.
Lemma counter_spec l : total (counter l) = prod l /\ NoDup (map fst (counter l)) /\ forall k, In k (map fst (counter l)) -> In k l.
Proof.
  unfold counter.
  assert (G : forall l c, NoDup (map fst c) -> total (fold_left count_in l c) = total c * prod l /\ NoDup (map fst (fold_left count_in l c)) /\
    forall k, In k (map fst (fold_left count_in l c)) -> In k (map fst c) \/ In k l).
  { clear l. induction l as [|x l IH]; intros c Hc; cbn [fold_left].
    - unfold prod. cbn. split; [ring | auto].
    - destruct (IH (count_in c x) (count_in_nodup c x Hc)) as (H1 & H2 & H3). rewrite H1, count_in_total, prod_cons.
      split; [ring|]. split; [exact H2|]. intros k Hk. destruct (H3 k Hk) as [H|H]; [|cbn; auto]. apply count_in_keys in H. cbn. intuition. }
  destruct (G l [] (NoDup_nil _)) as (H1 & H2 & H3). split; [rewrite H1; unfold total, prod; cbn [map fold_left]; ring|]. split; [exact H2|].
  intros k Hk. destruct (H3 k Hk) as [[]|H]. exact H.
Qed.

(** ** Divisors of prime powers and of coprime products *)
Lemma prime_pow_pos p c : prime p -> 0 < p ^ Z.of_nat c.
Proof. intros Hp. apply Z.pow_pos_nonneg; [destruct Hp; lia | lia]. Qed.

Lemma divisor_prime_pow p c d : prime p -> 0 < d -> (d | p ^ Z.of_nat c) -> exists i, (i <= c)%nat /\ d = p ^ Z.of_nat i.
Proof.
  intros Hp. assert (Hp2 : 2 <= p) by (destruct Hp; lia). revert d. induction c as [|c IH]; intros d Hd Hdiv.
  - exists 0%nat. split; [lia|]. cbn in *. apply Z.divide_1_r_nonneg in Hdiv; lia.
  - rewrite Nat2Z.inj_succ, Z.pow_succ_r in Hdiv by lia. destruct (Zdivide_dec p d) as [[q Hq]|Hn].
    + assert (Hdiv' : (q | p ^ Z.of_nat c)).
      { destruct Hdiv as [r Hr]. exists r. apply (Z.mul_reg_l _ _ p); [lia|]. rewrite Hr, Hq. ring. }
      destruct (IH q ltac:(nia) Hdiv') as [i [Hi He]]. exists (S i). split; [lia|]. rewrite Hq, He, Nat2Z.inj_succ, Z.pow_succ_r by lia. ring.
    + assert (Hrel : rel_prime d p) by (apply rel_prime_sym, prime_rel_prime; assumption).
      assert (Hdiv' : (d | p ^ Z.of_nat c)) by (apply (Gauss d p); assumption).
      destruct (IH d Hd Hdiv') as [i [Hi He]]. exists i. split; [lia | exact He].
Qed.

Lemma rel_prime_pow p a c : rel_prime p a -> rel_prime (p ^ Z.of_nat c) a.
Proof.
  intros H. induction c as [|c IH]; [apply rel_prime_1|]. rewrite Nat2Z.inj_succ, Z.pow_succ_r by lia.
  apply rel_prime_sym, rel_prime_mult; apply rel_prime_sym; assumption.
Qed.
Lemma total_coprime p c : prime p -> Forall (fun kc => prime (fst kc)) c -> ~ In p (map fst c) -> rel_prime p (total c).
Proof.
  intros Hp Hc Hn. unfold total. induction c as [|[k m] c IH]; cbn [map fst snd].
  - apply rel_prime_sym, rel_prime_1.
  - inversion Hc; subst. cbn [fst] in *. rewrite prod_cons. apply rel_prime_mult; [|apply IH; [assumption|]; intros H; apply Hn; right; exact H].
    apply rel_prime_sym, rel_prime_pow, prime_rel_prime; [assumption|]. intros Hdiv.
    apply prime_div_prime in Hdiv; [|assumption..]. apply Hn. left. cbn. congruence.
Qed.
Lemma total_pos c : Forall (fun kc => prime (fst kc)) c -> 0 < total c.
Proof.
  unfold total. induction 1 as [|[k m] c Hk Hc IH]; cbn [map fst snd]; [unfold prod; cbn; lia|]. rewrite prod_cons.
  assert (H := prime_pow_pos k m Hk). nia.
Qed.

Lemma divisor_split a b d : 0 < d -> 0 < a -> 0 < b -> rel_prime a b -> (d | a * b) -> exists x y, 0 < x /\ 0 < y /\ (x | a) /\ (y | b) /\ d = x * y.
Proof.
  intros Hd Ha Hb Hab Hdiv. set (g := Z.gcd d a). assert (Hg : 0 < g).
  { unfold g. assert (0 <= Z.gcd d a) by apply Z.gcd_nonneg. assert (Z.gcd d a <> 0) by (intros E; apply Z.gcd_eq_0_l in E; lia). lia. }
  destruct (Z.gcd_divide_l d a) as [y Hy]. destruct (Z.gcd_divide_r d a) as [a' Ha']. fold g in Hy, Ha'.
  exists g, y. split; [exact Hg|]. split; [nia|]. split; [exists a'; exact Ha'|]. split; [|rewrite Hy at 1; ring].
  assert (H1 : (y | a' * b)). { destruct Hdiv as [r Hr]. exists r. apply (Z.mul_reg_l _ _ g); [lia|]. rewrite Hy in Hr. rewrite Ha' in Hr. nia. }
  assert (H2 : rel_prime y a').
  { apply Zgcd_1_rel_prime. assert (Hgg : Z.gcd d a = g * Z.gcd y a').
    { rewrite Hy, Ha' at 1. rewrite (Z.mul_comm y g), (Z.mul_comm a' g), Z.gcd_mul_mono_l_nonneg by lia. reflexivity. }
    fold g in Hgg. nia. }
  apply (Gauss y a' b H1 H2).
Qed.

Lemma in_product {A} (ls : list (list A)) c : In c (product ls) <-> Forall2 (fun x l => In x l) c ls.
Proof.
  revert c. induction ls as [|l ls IH]; intros c; cbn [product].
  - split; [intros [<-|[]]; constructor | intros H; inversion H; left; reflexivity].
  - rewrite in_flat_map. split.
    + intros (x & Hx & H). apply in_map_iff in H. destruct H as (c' & <- & H). constructor; [exact Hx | apply IH; exact H].
    + intros H. inversion H; subst. exists x. split; [assumption|]. apply in_map. apply IH. assumption.
Qed.

Definition divs (c : list (Z * nat)) : list Z := map prod (product (map powers c)).
Lemma divs_cons p m c : divs ((p, m) :: c) = flat_map (fun x => map (Z.mul x) (divs c)) (powers (p, m)).
Proof.
  unfold divs. cbn [map product]. generalize (powers (p, m)). intros l. induction l as [|x l IH]; [reflexivity|]. cbn [flat_map].
  rewrite map_app, IH. f_equal. rewrite !map_map. apply map_ext. intros a. apply prod_cons.
Qed.

Lemma NoDup_flat_map {A B} (f : A -> list B) l : NoDup l -> (forall x, In x l -> NoDup (f x)) ->
  (forall x y b, In x l -> In y l -> In b (f x) -> In b (f y) -> x = y) -> NoDup (flat_map f l).
Proof.
  induction l as [|x l IH]; intros Hn Hf Hd; [constructor|]. apply NoDup_cons_iff in Hn. destruct Hn as [H1 H2]. cbn [flat_map].
  apply NoDup_app; [apply Hf; left; reflexivity | apply IH; auto|].
  - intros y Hy. apply Hf. right. exact Hy.
  - intros y z b Hy Hz. apply Hd; right; assumption.
  - intros b Hb Hb'. apply in_flat_map in Hb'. destruct Hb' as (y & Hy & Hb'). assert (x = y) by (apply (Hd x y b); [left; reflexivity | right; exact Hy | exact Hb | exact Hb']).
    subst y. contradiction.
Qed.
Lemma NoDup_map_inj {A B} (f : A -> B) l : (forall x y, In x l -> In y l -> f x = f y -> x = y) -> NoDup l -> NoDup (map f l).
Proof.
  induction l as [|x l IH]; intros Hi Hn; [constructor|]. apply NoDup_cons_iff in Hn. destruct Hn as [H1 H2]. cbn [map]. constructor.
  - intros H. apply in_map_iff in H. destruct H as (y & Hy & H). assert (y = x) by (apply Hi; [right; exact H | left; reflexivity | exact Hy]). subst. contradiction.
  - apply IH; [|exact H2]. intros y z Hy Hz. apply Hi; right; assumption.
Qed.

Lemma divs_spec c : Forall (fun kc => prime (fst kc)) c -> NoDup (map fst c) ->
  NoDup (divs c) /\ forall d, In d (divs c) <-> 0 < d /\ (d | total c).
Proof.
  induction c as [|[p m] c IH]; intros Hp Hn.
  - unfold divs, total. cbn. split; [constructor; [intros [] | constructor]|]. intros d. unfold prod. cbn. split.
    + intros [<-|[]]. split; [lia | apply Z.divide_refl].
    + intros [H1 H2]. left. apply Z.divide_1_r_nonneg in H2; lia.
  - inversion Hp as [|? ? Hp1 Hp2]; subst. cbn [fst] in Hp1. cbn [map fst] in Hn. apply NoDup_cons_iff in Hn. destruct Hn as [Hn1 Hn2].
    destruct (IH Hp2 Hn2) as [H1 H2]. clear IH. rewrite divs_cons.
    assert (Hcop := total_coprime p c Hp1 Hp2 Hn1). assert (Hpos := total_pos c Hp2).
    assert (Hp0 : 2 <= p) by (destruct Hp1; lia).
    assert (Ht : total ((p, m) :: c) = p ^ Z.of_nat m * total c) by (unfold total; cbn [map fst snd]; apply prod_cons).
    split.
    + apply NoDup_flat_map.
      * unfold powers. apply NoDup_map_inj; [|apply seq_NoDup]. intros i j _ _ E. cbn [fst] in E. apply Z.pow_inj_r in E; lia.
      * intros x Hx. unfold powers in Hx. apply in_map_iff in Hx. destruct Hx as (i & <- & _). cbn [fst]. apply NoDup_map_inj; [|exact H1].
        intros a b _ _ E. assert (Hpp := prime_pow_pos p i Hp1). nia.
      * intros x y b Hx Hy Hbx Hby. unfold powers in Hx, Hy. apply in_map_iff in Hx, Hy. cbn [fst] in Hx, Hy.
        destruct Hx as (i & <- & _). destruct Hy as (j & <- & _). apply in_map_iff in Hbx, Hby.
        destruct Hbx as (u & Hu & Hu'). destruct Hby as (v & Hv & Hv'). apply H2 in Hu', Hv'.
        (* p^i u = p^j v, u and v prime to p *)
        assert (G : forall i j u v, 0 < u -> (u | total c) -> (v | total c) -> p ^ Z.of_nat i * u = p ^ Z.of_nat j * v -> (j <= i)%nat).
        { clear - Hcop Hp1 Hp0. intros i j u v Hu Hud Hvd E. destruct (le_lt_dec j i) as [H|H]; [exact H|]. exfalso.
          assert (Hj : p ^ Z.of_nat j = p ^ Z.of_nat i * (p * p ^ Z.of_nat (j - i - 1))).
          { rewrite <- Z.pow_succ_r, <- Z.pow_add_r by lia. f_equal. lia. }
          assert (Hpi := prime_pow_pos p i Hp1).
          assert (E' : u = p * (p ^ Z.of_nat (j - i - 1) * v)) by (apply (Z.mul_reg_l _ _ (p ^ Z.of_nat i)); [lia|]; rewrite E, Hj; ring).
          assert (Hdiv : (p | total c)) by (apply (Z.divide_trans _ u); [exists (p ^ Z.of_nat (j - i - 1) * v); lia | exact Hud]).
          assert (Hd1 : (p | 1)) by (destruct Hcop as [_ _ Hc]; apply Hc; [apply Z.divide_refl | exact Hdiv]).
          apply Z.divide_1_r_nonneg in Hd1; lia. }
        assert (i = j) by (apply Nat.le_antisymm; [apply (G j i v u) | apply (G i j u v)]; try tauto; lia). subst. reflexivity.
    + intros d. rewrite Ht, in_flat_map. split.
      * intros (x & Hx & Hd). unfold powers in Hx. apply in_map_iff in Hx. destruct Hx as (i & <- & Hi). cbn [fst snd] in *. apply in_seq in Hi.
        apply in_map_iff in Hd. destruct Hd as (u & <- & Hu). apply H2 in Hu. assert (Hpi := prime_pow_pos p i Hp1).
        split; [nia|].
        apply (Z.divide_trans _ (p ^ Z.of_nat m * u)).
        -- apply Z.mul_divide_mono_r. exists (p ^ Z.of_nat (m - i)). rewrite <- Z.pow_add_r by lia. f_equal. lia.
        -- apply Z.mul_divide_mono_l. tauto.
      * intros [Hd Hdiv]. destruct (divisor_split (p ^ Z.of_nat m) (total c) d Hd (prime_pow_pos p m Hp1) Hpos (rel_prime_pow _ _ _ Hcop) Hdiv)
          as (x & y & Hx & Hy & Hx' & Hy' & ->).
        destruct (divisor_prime_pow p m x Hp1 Hx Hx') as [i [Hi ->]]. exists (p ^ Z.of_nat i). split.
        -- unfold powers. apply in_map_iff. exists i. cbn [fst snd]. split; [reflexivity | apply in_seq; lia].
        -- apply in_map. apply H2. auto.
Qed.

Lemma get_divisors_spec n : 1 <= n -> exists l, get_divisors n = Ok l /\ NoDup l /\ forall d, In d l <-> 0 < d /\ (d | n).
Proof.
  intros Hn. destruct (prime_factors_spec n Hn) as (pf & H1 & H2 & H3). unfold get_divisors. rewrite H1. cbn [bind]. eexists. split; [reflexivity|].
  destruct (counter_spec pf) as (C1 & C2 & C3). fold (divs (counter pf)).
  assert (Hp : Forall (fun kc => prime (fst kc)) (counter pf)).
  { apply Forall_forall. intros kc Hkc. rewrite Forall_forall in H2. apply H2, C3. apply in_map. exact Hkc. }
  destruct (divs_spec (counter pf) Hp C2) as [D1 D2]. rewrite C1, H3 in D2. auto.
Qed.
