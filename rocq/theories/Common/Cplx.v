(** Complex numbers as pairs of stdlib reals, finite sums. *)
From Coq Require Import Reals List Lra Psatz Ring.
Import ListNotations.
Local Open Scope R_scope.

Definition C : Type := (R * R)%type.
Definition Re (z : C) : R := fst z.
Definition Im (z : C) : R := snd z.
Definition RtoC (x : R) : C := (x, 0).
Definition C0 : C := (0, 0).
Definition C1 : C := (1, 0).
Definition Ci : C := (0, 1).
Definition Cadd (a b : C) : C := (fst a + fst b, snd a + snd b).
Definition Copp (a : C) : C := (- fst a, - snd a).
Definition Csub (a b : C) : C := (fst a - fst b, snd a - snd b).
Definition Cmul (a b : C) : C := (fst a * fst b - snd a * snd b, fst a * snd b + snd a * fst b).
Definition Cconj (a : C) : C := (fst a, - snd a).
(** multiplication / division by a real *)
Definition Cscal (r : R) (a : C) : C := (r * fst a, r * snd a).
(** abs(z)**2 *)
Definition Cnorm2 (a : C) : R := fst a * fst a + snd a * snd a.
(** abs(z) *)
Definition Cabs (a : C) : R := sqrt (Cnorm2 a).
(** exp(1j*t) *)
Definition Cexpi (t : R) : C := (cos t, sin t).

Declare Scope C_scope.
Delimit Scope C_scope with C.
Bind Scope C_scope with C.
Infix "+" := Cadd : C_scope.
Infix "-" := Csub : C_scope.
Infix "*" := Cmul : C_scope.
Notation "- x" := (Copp x) : C_scope.

Lemma C_eq (a b : C) : fst a = fst b -> snd a = snd b -> a = b.
Proof. destruct a, b; cbn; intros -> ->; reflexivity. Qed.

Ltac cring := apply C_eq; unfold Cadd, Csub, Cmul, Copp, Cconj, Cscal, C0, C1, Ci, RtoC, Cnorm2; cbn [fst snd]; ring.

Lemma Cring_theory : ring_theory C0 C1 Cadd Cmul Csub Copp (@eq C).
Proof. constructor; intros; cring. Qed.
Add Ring Cring : Cring_theory.

Lemma Ceq_dec (a b : C) : {a = b} + {a <> b}.
Proof.
  destruct a as [a1 a2], b as [b1 b2].
  destruct (Req_EM_T a1 b1) as [->|H]; [|right; congruence].
  destruct (Req_EM_T a2 b2) as [->|H]; [left; reflexivity|right; congruence].
Qed.

Lemma Cnorm2_nonneg a : 0 <= Cnorm2 a.
Proof. unfold Cnorm2; nra. Qed.
Lemma Cnorm2_zero a : Cnorm2 a = 0 -> a = C0.
Proof.
  unfold Cnorm2, C0; destruct a as [x y]; cbn; intros H.
  assert (x = 0) by nra; assert (y = 0) by nra; congruence.
Qed.
Lemma Cnorm2_0 : Cnorm2 C0 = 0.
Proof. unfold Cnorm2, C0; cbn; ring. Qed.
Lemma Cnorm2_mul a b : Cnorm2 (a * b)%C = Cnorm2 a * Cnorm2 b.
Proof. unfold Cnorm2, Cmul; cbn; ring. Qed.
Lemma Cnorm2_conj a : Cnorm2 (Cconj a) = Cnorm2 a.
Proof. unfold Cnorm2, Cconj; cbn; ring. Qed.
Lemma Cnorm2_scal r a : Cnorm2 (Cscal r a) = r * r * Cnorm2 a.
Proof. unfold Cnorm2, Cscal; cbn; ring. Qed.
Lemma Cnorm2_opp a : Cnorm2 (- a)%C = Cnorm2 a.
Proof. unfold Cnorm2, Copp; cbn; ring. Qed.
Lemma Cnorm2_sub_sym a b : Cnorm2 (a - b)%C = Cnorm2 (b - a)%C.
Proof. unfold Cnorm2, Csub; cbn; ring. Qed.
Lemma Cabs_nonneg a : 0 <= Cabs a.
Proof. apply sqrt_pos. Qed.
Lemma Cabs_sqr a : Cabs a * Cabs a = Cnorm2 a.
Proof. unfold Cabs; apply sqrt_sqrt, Cnorm2_nonneg. Qed.
Lemma Cabs_lt a b : Cabs a < Cabs b <-> Cnorm2 a < Cnorm2 b.
Proof.
  pose proof (Cabs_nonneg a); pose proof (Cabs_nonneg b).
  pose proof (Cabs_sqr a); pose proof (Cabs_sqr b). split; intros; nra.
Qed.
Lemma Cabs_le a b : Cabs a <= Cabs b <-> Cnorm2 a <= Cnorm2 b.
Proof.
  pose proof (Cabs_nonneg a); pose proof (Cabs_nonneg b).
  pose proof (Cabs_sqr a); pose proof (Cabs_sqr b). split; intros; nra.
Qed.
Lemma Cabs_mul a b : Cabs (a * b)%C = Cabs a * Cabs b.
Proof. unfold Cabs; rewrite Cnorm2_mul; apply sqrt_mult; apply Cnorm2_nonneg. Qed.
Lemma Cabs_0 a : Cabs a = 0 <-> a = C0.
Proof.
  split; intros H.
  - apply Cnorm2_zero; rewrite <- Cabs_sqr, H; ring.
  - subst; unfold Cabs; rewrite Cnorm2_0; apply sqrt_0.
Qed.

Lemma Cexpi_0 : Cexpi 0 = C1.
Proof. unfold Cexpi, C1; rewrite cos_0, sin_0; reflexivity. Qed.
Lemma Cexpi_add a b : Cexpi (a + b) = (Cexpi a * Cexpi b)%C.
Proof. unfold Cexpi, Cmul; cbn; rewrite cos_plus, sin_plus; f_equal; ring. Qed.
Lemma Cexpi_neg a : Cexpi (- a) = Cconj (Cexpi a).
Proof. unfold Cexpi, Cconj; cbn; rewrite cos_neg, sin_neg; reflexivity. Qed.
Lemma Cnorm2_expi t : Cnorm2 (Cexpi t) = 1.
Proof. unfold Cnorm2, Cexpi; cbn; pose proof (sin2_cos2 t) as H; unfold Rsqr in H; lra. Qed.
Lemma Cabs_expi t : Cabs (Cexpi t) = 1.
Proof. unfold Cabs; rewrite Cnorm2_expi; apply sqrt_1. Qed.
Lemma Cconj_mul a b : Cconj (a * b)%C = (Cconj a * Cconj b)%C.
Proof. cring. Qed.
Lemma Cconj_add a b : Cconj (a + b)%C = (Cconj a + Cconj b)%C.
Proof. cring. Qed.
Lemma Cconj_invol a : Cconj (Cconj a) = a.
Proof. cring. Qed.
Lemma Cmul_conj a : (a * Cconj a)%C = RtoC (Cnorm2 a).
Proof. cring. Qed.

(** ** triangle inequality *)
Lemma Cabs_triang a b : Cabs (a + b)%C <= Cabs a + Cabs b.
Proof.
  pose proof (Cabs_nonneg a) as Ha; pose proof (Cabs_nonneg b) as Hb;
  pose proof (Cabs_nonneg (a + b)%C) as Hab.
  pose proof (Cabs_sqr a) as Sa; pose proof (Cabs_sqr b) as Sb; pose proof (Cabs_sqr (a + b)%C) as Sab.
  assert (Hcs : fst a * fst b + snd a * snd b <= Cabs a * Cabs b).
  { destruct (Rle_lt_dec (fst a * fst b + snd a * snd b) 0) as [H|H]; [nra|].
    assert ((fst a * fst b + snd a * snd b) * (fst a * fst b + snd a * snd b)
            <= (Cabs a * Cabs b) * (Cabs a * Cabs b)).
    { replace (Cabs a * Cabs b * (Cabs a * Cabs b)) with ((Cabs a * Cabs a) * (Cabs b * Cabs b)) by ring.
      rewrite Sa, Sb; unfold Cnorm2.
      pose proof (Rle_0_sqr (fst a * snd b - snd a * fst b)) as Hsq; unfold Rsqr in Hsq.
      replace ((fst a * fst a + snd a * snd a) * (fst b * fst b + snd b * snd b)) with
        ((fst a * fst b + snd a * snd b) * (fst a * fst b + snd a * snd b)
         + (fst a * snd b - snd a * fst b) * (fst a * snd b - snd a * fst b)) by ring. lra. }
    assert (0 <= Cabs a * Cabs b) by nra. nra. }
  assert (Cabs (a + b)%C * Cabs (a + b)%C <= (Cabs a + Cabs b) * (Cabs a + Cabs b)).
  { rewrite Sab. unfold Cnorm2 in *; unfold Cadd in *; cbn [fst snd] in *. nra. }
  nra.
Qed.

(** ** sums *)
Definition Rsum (l : list R) : R := fold_right Rplus 0 l.
Definition Csum (l : list C) : C := fold_right Cadd C0 l.

Lemma Rsum_app l1 l2 : Rsum (l1 ++ l2) = Rsum l1 + Rsum l2.
Proof. unfold Rsum; induction l1 as [|a l1 IH]; cbn; [ring|rewrite IH; ring]. Qed.
Lemma Csum_app l1 l2 : Csum (l1 ++ l2) = (Csum l1 + Csum l2)%C.
Proof. unfold Csum; induction l1 as [|a l1 IH]; cbn [fold_right app]; [ring|rewrite IH; ring]. Qed.
Lemma Rsum_cons a l : Rsum (a :: l) = a + Rsum l.
Proof. reflexivity. Qed.
Lemma Csum_cons a l : Csum (a :: l) = (a + Csum l)%C.
Proof. reflexivity. Qed.
Lemma Rsum_map_add {A} (f g : A -> R) l :
  Rsum (map (fun x => f x + g x) l) = Rsum (map f l) + Rsum (map g l).
Proof. induction l as [|a l IH]; cbn [map]; [unfold Rsum; cbn; ring|rewrite !Rsum_cons, IH; ring]. Qed.
Lemma Rsum_map_scal {A} k (f : A -> R) l : Rsum (map (fun x => k * f x) l) = k * Rsum (map f l).
Proof. induction l as [|a l IH]; cbn [map]; [unfold Rsum; cbn; ring|rewrite !Rsum_cons, IH; ring]. Qed.
Lemma Csum_map_add {A} (f g : A -> C) l :
  Csum (map (fun x => (f x + g x)%C) l) = (Csum (map f l) + Csum (map g l))%C.
Proof. induction l as [|a l IH]; cbn [map]; [unfold Csum; cbn [fold_right]; ring|rewrite !Csum_cons, IH; ring]. Qed.
Lemma Csum_map_mul {A} k (f : A -> C) l : Csum (map (fun x => (k * f x)%C) l) = (k * Csum (map f l))%C.
Proof. induction l as [|a l IH]; cbn [map]; [unfold Csum; cbn [fold_right]; ring|rewrite !Csum_cons, IH; ring]. Qed.
Lemma Rsum_map_const {A} k (l : list A) : Rsum (map (fun _ => k) l) = INR (length l) * k.
Proof. induction l as [|a l IH]; [unfold Rsum; cbn; ring|]. cbn [map]; rewrite Rsum_cons, IH; cbn [length]; rewrite S_INR; ring. Qed.
Lemma Rsum_nonneg l : (forall x, In x l -> 0 <= x) -> 0 <= Rsum l.
Proof.
  induction l as [|a l IH]; intros H; [apply Rle_refl|]. rewrite Rsum_cons.
  assert (0 <= a) by (apply H; left; reflexivity).
  assert (0 <= Rsum l) by (apply IH; intros; apply H; right; assumption). lra.
Qed.
Lemma Rsum_le {A} (f g : A -> R) l :
  (forall x, In x l -> f x <= g x) -> Rsum (map f l) <= Rsum (map g l).
Proof.
  induction l as [|a l IH]; intros H; [apply Rle_refl|]; cbn [map]; rewrite !Rsum_cons.
  assert (f a <= g a) by (apply H; left; reflexivity).
  assert (Rsum (map f l) <= Rsum (map g l)) by (apply IH; intros; apply H; right; assumption). lra.
Qed.
Lemma Rsum_zero_nonneg l : (forall x, In x l -> 0 <= x) -> Rsum l = 0 -> forall x, In x l -> x = 0.
Proof.
  induction l as [|a l IH]; intros H Hs x Hx; [contradiction|]. rewrite Rsum_cons in Hs.
  assert (0 <= a) by (apply H; left; reflexivity).
  assert (0 <= Rsum l) by (apply Rsum_nonneg; intros; apply H; right; assumption).
  destruct Hx as [<-|Hx]; [lra|]. apply IH; auto; [intros; apply H; right; assumption|lra].
Qed.
Lemma Re_Csum l : fst (Csum l) = Rsum (map fst l).
Proof. induction l as [|a l IH]; [reflexivity|]. rewrite Csum_cons; cbn [map]; rewrite Rsum_cons, <- IH; reflexivity. Qed.
Lemma Im_Csum l : snd (Csum l) = Rsum (map snd l).
Proof. induction l as [|a l IH]; [reflexivity|]. rewrite Csum_cons; cbn [map]; rewrite Rsum_cons, <- IH; reflexivity. Qed.

(** np.mean of a non-empty real / complex array *)
Definition Rmean (l : list R) : R := Rsum l / INR (length l).
Definition Cmean (l : list C) : C := Cscal (/ INR (length l)) (Csum l).
