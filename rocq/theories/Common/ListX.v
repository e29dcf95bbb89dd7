(** Lemmas about the numpy primitives of [Py.v]. *)
From Coq Require Import List ZArith NArith Bool Arith Lia ZifyBool ZifyNat ZifyN.
From Verif.Common Require Import Py.
Import ListNotations.
Ltac Zify.zify_post_hook ::= Z.div_mod_to_equations.

Lemma nth_error_ext {A} (l1 l2 : list A) :
  (forall i, nth_error l1 i = nth_error l2 i) -> l1 = l2.
Proof.
  revert l2; induction l1 as [|a l1 IH]; intros [|b l2] H; try reflexivity.
  - specialize (H 0); discriminate.
  - specialize (H 0); discriminate.
  - f_equal.
    + specialize (H 0); cbn in H; congruence.
    + apply IH; intros i; exact (H (S i)).
Qed.

Lemma nth_error_ext_lt {A} (l1 l2 : list A) :
  length l1 = length l2 ->
  (forall i, i < length l1 -> nth_error l1 i = nth_error l2 i) -> l1 = l2.
Proof.
  intros Hl H; apply nth_error_ext; intros i.
  destruct (Nat.lt_ge_cases i (length l1)) as [Hi|Hi]; [auto|].
  assert (nth_error l1 i = None) as -> by (apply nth_error_None; lia).
  symmetry; apply nth_error_None; lia.
Qed.

Lemma nth_error_firstn_lt {A} (l : list A) n i :
  i < n -> nth_error (firstn n l) i = nth_error l i.
Proof.
  revert n i; induction l as [|a l IH]; intros [|n] [|i] H; try lia; try reflexivity.
  cbn; apply IH; lia.
Qed.

Lemma nth_error_firstn_ge {A} (l : list A) n i :
  n <= i -> nth_error (firstn n l) i = None.
Proof. intros H; apply nth_error_None; rewrite firstn_length; lia. Qed.

Lemma nth_error_skipn' {A} (l : list A) n i :
  nth_error (skipn n l) i = nth_error l (n + i).
Proof.
  revert n; induction l as [|a l IH]; intros [|n]; cbn; try reflexivity.
  - destruct i; reflexivity.
  - apply IH.
Qed.

Lemma skipn_skipn' {A} (l : list A) m n : skipn m (skipn n l) = skipn (n + m) l.
Proof.
  apply nth_error_ext; intros i; rewrite !nth_error_skipn'; f_equal; lia.
Qed.

Lemma nth_error_Some_lt {A} (l : list A) i a : nth_error l i = Some a -> i < length l.
Proof. intros H; apply nth_error_Some; congruence. Qed.

Lemma nth_error_lt_Some {A} (l : list A) i : i < length l -> exists a, nth_error l i = Some a.
Proof.
  intros H; destruct (nth_error l i) eqn:E; [eauto|].
  apply nth_error_None in E; lia.
Qed.

Lemma nth_error_seq s n i : i < n -> nth_error (seq s n) i = Some (s + i).
Proof.
  revert s i; induction n as [|n IH]; intros s [|i] H; try lia; cbn.
  - f_equal; lia.
  - rewrite IH by lia; f_equal; lia.
Qed.

Lemma nth_error_map_seq {A} (f : nat -> A) s n i :
  i < n -> nth_error (map f (seq s n)) i = Some (f (s + i)).
Proof. intros H; erewrite map_nth_error by (apply nth_error_seq; exact H); reflexivity. Qed.

Lemma nth_error_map {A B} (f : A -> B) l i :
  nth_error (map f l) i = option_map f (nth_error l i).
Proof. revert i; induction l as [|a l IH]; intros [|i]; cbn; auto. Qed.

Lemma nth_error_repeat_lt {A} (a : A) n i : i < n -> nth_error (repeat a n) i = Some a.
Proof. revert i; induction n as [|n IH]; intros [|i] H; try lia; cbn; auto; apply IH; lia. Qed.

Lemma NoDup_nth_error_inj {A} (l : list A) i j a :
  NoDup l -> nth_error l i = Some a -> nth_error l j = Some a -> i = j.
Proof.
  intros Hnd Hi Hj.
  apply (proj1 (NoDup_nth_error l) Hnd i j); [eapply nth_error_Some_lt; eauto|congruence].
Qed.

(** ** grid *)
Lemma grid_length {A} m n (f : nat -> nat -> A) : length (grid m n f) = m * n.
Proof.
  unfold grid; generalize 0 at 2 as s.
  induction m as [|m IH]; intros s; cbn [seq flat_map]; [reflexivity|].
  rewrite app_length, map_length, seq_length, IH; lia.
Qed.

Lemma grid_nth_aux {A} m n (f : nat -> nat -> A) s i j :
  i < m -> j < n ->
  nth_error (flat_map (fun i => map (f i) (seq 0 n)) (seq s m)) (i * n + j) = Some (f (s + i) j).
Proof.
  revert s i; induction m as [|m IH]; intros s i Hi Hj; [lia|].
  cbn [seq flat_map]; destruct i as [|i].
  - rewrite nth_error_app1 by (rewrite map_length, seq_length; lia).
    cbn [Nat.mul]; rewrite nth_error_map_seq by lia; f_equal; f_equal; lia.
  - rewrite nth_error_app2 by (rewrite map_length, seq_length; lia).
    rewrite map_length, seq_length.
    replace (S i * n + j - n) with (i * n + j) by lia.
    rewrite IH by lia; f_equal; f_equal; lia.
Qed.

Lemma grid_nth {A} m n (f : nat -> nat -> A) i j :
  i < m -> j < n -> nth_error (grid m n f) (i * n + j) = Some (f i j).
Proof. intros; unfold grid; rewrite grid_nth_aux by assumption; reflexivity. Qed.

Lemma grid_nth_divmod {A} m n (f : nat -> nat -> A) k :
  k < m * n -> nth_error (grid m n f) k = Some (f (k / n) (k mod n)).
Proof.
  intros H; destruct (Nat.eq_dec n 0) as [->|Hn]; [lia|].
  assert (k / n < m) by (apply Nat.div_lt_upper_bound; lia).
  assert (k mod n < n) by (apply Nat.mod_upper_bound; lia).
  rewrite <- (grid_nth m n f (k / n) (k mod n)) by assumption.
  f_equal; rewrite (Nat.div_mod k n) at 1 by assumption; lia.
Qed.

Lemma grid_map {A B} m n (f : nat -> nat -> A) (g : A -> B) :
  map g (grid m n f) = grid m n (fun i j => g (f i j)).
Proof.
  unfold grid; generalize 0 at 2 4 as s; induction m as [|m IH]; intros s; cbn; [reflexivity|].
  rewrite map_app, map_map, IH; reflexivity.
Qed.

Lemma in_grid {A} m n (f : nat -> nat -> A) x :
  In x (grid m n f) <-> exists i j, i < m /\ j < n /\ f i j = x.
Proof.
  unfold grid; rewrite in_flat_map; split.
  - intros [i [Hi H]]; apply in_map_iff in H; destruct H as [j [Hj H]].
    apply in_seq in Hi; apply in_seq in H; exists i, j; repeat split; try lia; assumption.
  - intros (i & j & Hi & Hj & H); exists i; split; [apply in_seq; lia|].
    apply in_map_iff; exists j; split; [assumption|apply in_seq; lia].
Qed.

(** ** roll *)
Lemma roll_length {A} k (l : list A) : length (roll k l) = length l.
Proof.
  unfold roll; rewrite app_length, skipn_length, firstn_length.
  destruct l as [|a l]; [cbn [length]; lia|].
  assert (0 <= (- k) mod Z.of_nat (length (a :: l)) < Z.of_nat (length (a :: l)))%Z
    by (apply Z.mod_pos_bound; cbn [length]; lia).
  lia.
Qed.

Lemma roll_nth {A} k (l : list A) i :
  i < length l ->
  nth_error (roll k l) i = nth_error l (Z.to_nat ((Z.of_nat i - k) mod Z.of_nat (length l))).
Proof.
  intros Hi; set (n := Z.of_nat (length l)).
  assert (Hn : (0 < n)%Z) by lia.
  assert (Hs : (0 <= (- k) mod n < n)%Z) by (apply Z.mod_pos_bound; lia).
  assert (Hmod : ((Z.of_nat i - k) mod n = (Z.of_nat i + (- k) mod n) mod n)%Z)
    by (rewrite Zplus_mod_idemp_r; f_equal; lia).
  unfold roll; fold n; set (s := ((- k) mod n)%Z) in *.
  rewrite Hmod.
  destruct (Z.lt_ge_cases (Z.of_nat i + s) n) as [H|H].
  - rewrite nth_error_app1 by (rewrite skipn_length; lia).
    rewrite nth_error_skipn', Z.mod_small by lia; f_equal; lia.
  - rewrite nth_error_app2 by (rewrite skipn_length; lia).
    rewrite skipn_length, nth_error_firstn_lt by lia.
    assert (((Z.of_nat i + s) mod n = Z.of_nat i + s - n)%Z) as ->.
    { symmetry; apply (Z.mod_unique _ _ 1); lia. }
    f_equal; lia.
Qed.

(** ** tile *)
Lemma tile_length {A} n (l : list A) : length (tile n l) = n * length l.
Proof. unfold tile; induction n as [|n IH]; cbn; [reflexivity|rewrite app_length, IH; lia]. Qed.

Lemma tile_nth {A} n (l : list A) i :
  i < n * length l -> nth_error (tile n l) i = nth_error l (i mod length l).
Proof.
  unfold tile; revert i; induction n as [|n IH]; intros i H; [lia|]; cbn [repeat concat].
  destruct (Nat.lt_ge_cases i (length l)) as [Hi|Hi].
  - rewrite nth_error_app1, Nat.mod_small by assumption; reflexivity.
  - rewrite nth_error_app2, IH by lia.
    f_equal. assert (length l <> 0) by lia.
    rewrite <- (Nat.mod_add (i - length l) 1) by lia; f_equal; lia.
Qed.

Lemma tile_S {A} n (l : list A) : tile (S n) l = l ++ tile n l.
Proof. reflexivity. Qed.
Lemma tile_1 {A} (l : list A) : tile 1 l = l.
Proof. unfold tile; cbn; apply app_nil_r. Qed.

(** ** masks *)
Lemma count_true_app m1 m2 : count_true (m1 ++ m2) = count_true m1 + count_true m2.
Proof. induction m1 as [|[] m1 IH]; cbn; lia. Qed.
Lemma count_true_le m : count_true m <= length m.
Proof. induction m as [|[] m IH]; cbn; lia. Qed.
Lemma count_true_neg m : count_true (map negb m) + count_true m = length m.
Proof. induction m as [|[] m IH]; cbn; lia. Qed.
Lemma count_true_tile n m : count_true (tile n m) = n * count_true m.
Proof. unfold tile; induction n as [|n IH]; cbn; [reflexivity|rewrite count_true_app, IH; lia]. Qed.
Lemma count_true_filter m : count_true m = length (filter (fun b => b) m).
Proof. induction m as [|[] m IH]; cbn; lia. Qed.

Lemma mask_sel_length {A} m (l : list A) :
  length m = length l -> length (mask_sel m l) = count_true m.
Proof.
  revert l; induction m as [|b m IH]; intros [|a l] H; cbn in *; try lia; try reflexivity.
  destruct b; cbn; rewrite IH by lia; reflexivity.
Qed.

Lemma mask_sel_app {A} m1 m2 (l1 l2 : list A) :
  length m1 = length l1 -> mask_sel (m1 ++ m2) (l1 ++ l2) = mask_sel m1 l1 ++ mask_sel m2 l2.
Proof.
  revert l1; induction m1 as [|b m1 IH]; intros [|a l1] H; cbn in *; try lia; try reflexivity.
  destruct b; cbn; rewrite IH by lia; reflexivity.
Qed.

Lemma mask_put_length {A} m (v l : list A) : length (mask_put m v l) = length l.
Proof.
  revert v l; induction m as [|b m IH]; intros v [|a l]; cbn; try reflexivity; try (destruct b; reflexivity).
  destruct b; [destruct v|]; cbn; rewrite IH; reflexivity.
Qed.

Lemma mask_sel_put {A} m (v l : list A) :
  length m = length l -> count_true m = length v -> mask_sel m (mask_put m v l) = v.
Proof.
  revert v l; induction m as [|b m IH]; intros v [|a l] Hl Hc; cbn in *; try lia.
  - destruct v; [reflexivity|discriminate].
  - destruct b; cbn in *.
    + destruct v as [|x v]; [discriminate|]; cbn; rewrite IH; auto; lia.
    + apply IH; auto; lia.
Qed.

Lemma mask_sel_put_neg {A} m (v l : list A) :
  length m = length l -> mask_sel (map negb m) (mask_put m v l) = mask_sel (map negb m) l.
Proof.
  revert v l; induction m as [|b m IH]; intros v [|a l] Hl; cbn in *; try lia; try reflexivity.
  destruct b; cbn.
  - destruct v; cbn; apply IH; lia.
  - f_equal; apply IH; lia.
Qed.

Lemma nonzero_from_spec k m i :
  In i (nonzero_from k m) <-> k <= i /\ nth_error m (i - k) = Some true.
Proof.
  revert k; induction m as [|b m IH]; intros k; cbn.
  - split; [tauto|]. intros [_ H]; destruct (i - k); discriminate.
  - destruct b; cbn; rewrite IH; split; intros H.
    + destruct H as [<-|[H1 H2]].
      * rewrite Nat.sub_diag; split; [lia|reflexivity].
      * split; [lia|]. replace (i - k) with (S (i - S k)) by lia; exact H2.
    + destruct H as [H1 H2]; destruct (Nat.eq_dec k i) as [->|Hne]; [auto|right].
      split; [lia|]. replace (i - k) with (S (i - S k)) in H2 by lia; exact H2.
    + destruct H as [H1 H2]; split; [lia|]. replace (i - k) with (S (i - S k)) by lia; exact H2.
    + destruct H as [H1 H2]; destruct (Nat.eq_dec k i) as [->|Hne].
      * rewrite Nat.sub_diag in H2; discriminate.
      * split; [lia|]. replace (i - k) with (S (i - S k)) in H2 by lia; exact H2.
Qed.

Lemma nonzero_spec m i : In i (nonzero m) <-> nth_error m i = Some true.
Proof. unfold nonzero; rewrite nonzero_from_spec, Nat.sub_0_r; split; [tauto|split; [lia|tauto]]. Qed.

Lemma nonzero_length m : length (nonzero m) = count_true m.
Proof.
  unfold nonzero; generalize 0 as k; induction m as [|[] m IH]; intros k; cbn; auto.
Qed.

Lemma mask_sel_nonzero {A} m (l : list A) k (pre : list A) :
  length pre = k -> length m = length l ->
  mapM (getn (pre ++ l)) (nonzero_from k m) = Ok (mask_sel m l).
Proof.
  revert l k pre; induction m as [|b m IH]; intros [|a l] k pre Hp Hl; cbn in *; try lia; try reflexivity.
  specialize (IH l (S k) (pre ++ [a])).
  rewrite <- app_assoc in IH; cbn in IH.
  rewrite app_length in IH; cbn in IH.
  destruct b; cbn.
  - unfold getn at 1; rewrite nth_error_app2 by lia.
    replace (k - length pre) with 0 by lia; cbn.
    rewrite IH by lia; reflexivity.
  - apply IH; lia.
Qed.

Lemma fancy_get_nonzero {A} m (l : list A) :
  length m = length l -> fancy_get (nonzero m) l = Ok (mask_sel m l).
Proof. intros H; exact (mask_sel_nonzero m l 0 [] eq_refl H). Qed.

(** ** mapM *)
Lemma mapM_length {A B} (f : A -> result B) l bs : mapM f l = Ok bs -> length bs = length l.
Proof.
  revert bs; induction l as [|a l IH]; intros bs H; cbn in *; [injection H as <-; reflexivity|].
  destruct (f a); cbn in H; [|discriminate].
  destruct (mapM f l) eqn:E; cbn in H; [|discriminate].
  injection H as <-; cbn; erewrite IH; eauto.
Qed.

Lemma mapM_ok {A B} (f : A -> result B) (g : A -> B) l :
  (forall a, In a l -> f a = Ok (g a)) -> mapM f l = Ok (map g l).
Proof.
  induction l as [|a l IH]; intros H; cbn; [reflexivity|].
  rewrite (H a) by (left; reflexivity); cbn.
  rewrite IH by (intros; apply H; right; assumption); reflexivity.
Qed.

Lemma mapM_nth {A B} (f : A -> result B) l bs i a :
  mapM f l = Ok bs -> nth_error l i = Some a -> exists b, nth_error bs i = Some b /\ f a = Ok b.
Proof.
  revert bs i; induction l as [|x l IH]; intros bs i H Hi; [destruct i; discriminate|].
  cbn in H; destruct (f x) eqn:Ex; cbn in H; [|discriminate].
  destruct (mapM f l) eqn:E; cbn in H; [|discriminate]; injection H as <-.
  destruct i as [|i]; cbn in *.
  - injection Hi as <-; eauto.
  - apply IH; auto.
Qed.

(** ** chunks *)
Lemma chunks_fuel_eq {A} w f1 f2 (l : list A) :
  0 < w -> length l <= f1 -> length l <= f2 -> chunks_fuel f1 w l = chunks_fuel f2 w l.
Proof.
  intros Hw; revert f2 l; induction f1 as [|f1 IH]; intros f2 l H1 H2.
  - destruct l; cbn in *; [destruct f2; reflexivity|lia].
  - destruct f2 as [|f2]; [destruct l; cbn in *; [reflexivity|lia]|].
    cbn; destruct l as [|a l]; [reflexivity|]; f_equal.
    apply IH; rewrite skipn_length; cbn [length] in *; lia.
Qed.

Lemma chunks_fuel_more {A} w (l : list A) f :
  length l <= f -> 0 < w -> chunks_fuel f w l = chunks w l.
Proof. intros; apply chunks_fuel_eq; lia. Qed.

Lemma chunks_cons {A} w (l : list A) :
  0 < w -> l <> [] -> chunks w l = firstn w l :: chunks w (skipn w l).
Proof.
  intros Hw Hl; unfold chunks at 1; destruct l as [|a l]; [congruence|].
  cbn [length chunks_fuel]; f_equal; apply chunks_fuel_more; [|assumption].
  rewrite skipn_length; cbn [length]; lia.
Qed.

Lemma chunks_nil {A} w : chunks w (@nil A) = [].
Proof. reflexivity. Qed.

Lemma chunks_nth {A} w (l : list A) i :
  0 < w -> i * w < length l -> nth_error (chunks w l) i = Some (firstn w (skipn (i * w) l)).
Proof.
  intros Hw; revert l; induction i as [|i IH]; intros l H.
  - rewrite chunks_cons; [reflexivity|assumption|destruct l; cbn in *; [lia|discriminate]].
  - rewrite chunks_cons; [|assumption|destruct l; cbn in *; [lia|discriminate]].
    cbn [nth_error]. rewrite IH by (rewrite skipn_length; lia).
    f_equal; f_equal. rewrite skipn_skipn'; f_equal; lia.
Qed.

Lemma chunks_length_mul {A} w (l : list A) n :
  0 < w -> length l = n * w -> length (chunks w l) = n.
Proof.
  intros Hw; revert l; induction n as [|n IH]; intros l H.
  - destruct l; [reflexivity|discriminate].
  - rewrite chunks_cons; [|assumption|destruct l; cbn in *; [lia|discriminate]].
    cbn; f_equal; apply IH; rewrite skipn_length; lia.
Qed.

Lemma concat_chunks {A} w (l : list A) : 0 < w -> concat (chunks w l) = l.
Proof.
  intros Hw; remember (length l) as n eqn:Hn; revert l Hn.
  induction n as [n IH] using (well_founded_induction lt_wf); intros l Hn.
  destruct l as [|a l]; [reflexivity|].
  rewrite chunks_cons by (assumption || discriminate); cbn [concat].
  rewrite (IH (length (skipn w (a :: l)))); [apply firstn_skipn| |reflexivity].
  rewrite skipn_length; cbn [length] in *; lia.
Qed.

Lemma chunks_elem_length {A} w (l : list A) n c :
  0 < w -> length l = n * w -> In c (chunks w l) -> length c = w.
Proof.
  intros Hw Hl Hin; apply In_nth_error in Hin; destruct Hin as [i Hi].
  assert (i < n) by (apply nth_error_Some_lt in Hi; rewrite (chunks_length_mul w l n) in Hi; assumption).
  rewrite chunks_nth in Hi by nia; injection Hi as <-.
  rewrite firstn_length, skipn_length; nia.
Qed.

(** ** upd *)
Lemma upd_length {A} i v (l : list A) : length (upd i v l) = length l.
Proof. revert i; induction l as [|a l IH]; intros [|i]; cbn; auto. Qed.
Lemma upd_nth_same {A} i v (l : list A) : i < length l -> nth_error (upd i v l) i = Some v.
Proof. revert i; induction l as [|a l IH]; intros [|i] H; cbn in *; try lia; auto; apply IH; lia. Qed.
Lemma upd_nth_other {A} i j v (l : list A) : i <> j -> nth_error (upd i v l) j = nth_error l j.
Proof. revert i j; induction l as [|a l IH]; intros [|i] [|j] H; cbn; auto; try lia. Qed.

(** ** slices *)
Lemma clipz_bounds n i : (0 <= n)%Z -> (0 <= clipz n i <= n)%Z.
Proof. unfold clipz; destruct (i <? 0)%Z eqn:E; lia. Qed.

Lemma clipz_pos n i : (0 <= i <= n)%Z -> clipz n i = i.
Proof. unfold clipz; destruct (i <? 0)%Z eqn:E; lia. Qed.

Lemma pyslice_nat {A} (l : list A) a b :
  a <= b -> b <= length l ->
  pyslice (Z.of_nat a) (Z.of_nat b) l = firstn (b - a) (skipn a l).
Proof. intros; unfold pyslice; rewrite !clipz_pos by lia; f_equal; [lia|f_equal; lia]. Qed.

Lemma pyslice_length {A} (l : list A) lo hi :
  length (pyslice lo hi l) =
  Z.to_nat (clipz (Z.of_nat (length l)) hi - clipz (Z.of_nat (length l)) lo).
Proof.
  unfold pyslice; rewrite firstn_length, skipn_length.
  pose proof (clipz_bounds (Z.of_nat (length l)) hi).
  pose proof (clipz_bounds (Z.of_nat (length l)) lo). lia.
Qed.

(** ** strides *)
Lemma stride_from_nth {A} k c (l : list A) i :
  0 < k -> nth_error (stride_from k c l) i = nth_error l (c + i * k).
Proof.
  intros Hk; revert c i; induction l as [|a l IH]; intros c i; cbn [stride_from].
  - destruct i; destruct (c + _); reflexivity.
  - destruct c as [|c].
    + destruct i as [|i]; [reflexivity|]. cbn [nth_error].
      rewrite IH. replace (0 + S i * k) with (S (k - 1 + i * k)) by (cbn; nia). reflexivity.
    + rewrite IH; reflexivity.
Qed.

Lemma stride_nth {A} k (l : list A) i : 0 < k -> nth_error (stride k l) i = nth_error l (i * k).
Proof. intros; unfold stride; rewrite stride_from_nth by assumption; reflexivity. Qed.

Lemma stride_from_length {A} k c (l : list A) :
  0 < k -> length (stride_from k c l) = (length l + k - 1 - c) / k.
Proof.
  intros Hk; revert c; induction l as [|a l IH]; intros c; cbn [stride_from length].
  - symmetry; apply Nat.div_small; lia.
  - destruct c as [|c]; cbn [length].
    + rewrite IH. replace (S (length l) + k - 1 - 0) with (length l + 1 * k) by lia.
      rewrite Nat.div_add by lia. replace (length l + k - 1 - (k - 1)) with (length l) by lia. lia.
    + rewrite IH; f_equal; lia.
Qed.

Lemma stride_length {A} k (l : list A) : 0 < k -> length (stride k l) = (length l + k - 1) / k.
Proof. intros; unfold stride; rewrite stride_from_length by assumption; f_equal; lia. Qed.

Lemma Forall2_imp {A B} (P Q : A -> B -> Prop) l l' :
  (forall a b, P a b -> Q a b) -> Forall2 P l l' -> Forall2 Q l l'.
Proof. intros H F; induction F; constructor; auto. Qed.
