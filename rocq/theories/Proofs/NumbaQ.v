(** Error functions of the numba equaliser. *)
From Coq Require Import List ZArith Arith Bool Lia Reals Lra.
From Verif Require Import Common.Py Common.Cplx Common.ListX Model.Constellation Model.Decision Model.Equaliser Model.NumbaEq Spec.Metrics Proofs.QualityQ.
Import ListNotations.
Local Open Scope R_scope.

Lemma cma_same s rest x i : ErrorFctCMA (Re s) x = cma_error x (s :: rest) i.
Proof. reflexivity. Qed.
Lemma mcma_same s rest x i : ErrorFctMCMA s x = mcma_error x (s :: rest) i.
Proof. reflexivity. Qed.
Lemma decide_same x symbols : (exists t, In t symbols /\ Cabs (x - t)%C ^ 2 < 1000) -> n_decide x symbols = Ok (fst (det_symbol x symbols)).
Proof. intros H. destruct (c21 x symbols H) as (i & s & _ & E1 & _ & E2). unfold n_decide. rewrite E2, E1. reflexivity. Qed.
Lemma dd_same symbols x i : (exists t, In t symbols /\ Cabs (x - t)%C ^ 2 < 1000) ->
  ErrorFctSBD symbols x = sbd_error x symbols i /\ ErrorFctMDDMA symbols x = mddma_error x symbols i /\ ErrorFctDD symbols x = ddlms_error x symbols i.
Proof. intros H. unfold ErrorFctSBD, ErrorFctMDDMA, ErrorFctDD. rewrite (decide_same x symbols H). cbn [bind]. repeat split. Qed.
Lemma dd_far i : ErrorFctDD [C0] (100, 0) <> ddlms_error (100, 0) [C0] i.
Proof.
  unfold ErrorFctDD, n_decide, ddlms_error. destruct c21_far as (_ & E & _). rewrite E. cbn [fst].
  change (det_symbol_argmin (100, 0) [C0]) with (Ok (C0, Cabs ((100, 0) - C0)%C, 0%nat)). cbn [bind fst]. intros X.
  assert (Y : (C0 - (100, 0))%C = (C1 - (100, 0))%C) by congruence. unfold Csub, C0, C1 in Y. cbn in Y. apply pair_equal_spec in Y as (Y & _). lra.
Qed.
Lemma numba_names partition codebook partitionc codebookc x : ErrorFctRDE partition codebook x = Err NameError /\ ErrorFctMRDE partitionc codebookc x = Err NameError.
Proof. split; reflexivity. Qed.
Lemma value_same s parts codes : n_partition_value s parts codes = partition_value s (map RtoC parts) (map RtoC codes) Re.
Proof.
  unfold n_partition_value, partition_value, getn. rewrite nth_error_map. destruct (nth_error codes _) as [c|]; reflexivity.
Qed.
(** ** constellation matched error, square contour *)
Lemma sin_kpi k : sin (IZR k * PI) = 0.
Proof. apply sin_eq_0_1. exists k. reflexivity. Qed.
Lemma cme_lattice r d beta a b : d <> 0 -> let x := (IZR a * d, IZR b * d) in ErrorFctCME r d beta x = ErrorFctCMA r x.
Proof.
  intros Hd x. unfold ErrorFctCME, ErrorFctCMA. destruct (Req_EM_T d 0) as [E|_]; [congruence|]. apply (f_equal Ok).
  unfold x, Re, Im. cbn [fst snd]. replace (IZR a * d * PI / d) with (IZR a * PI) by (field; exact Hd). replace (IZR b * d * PI / d) with (IZR b * PI) by (field; exact Hd).
  rewrite !sin_kpi. apply C_eq; unfold Cadd; cbn [fst snd]; ring.
Qed.
Lemma cme_odd r d beta x e : ErrorFctCME r d beta x = Ok e -> ErrorFctCME r d beta (Copp x) = Ok (Copp e).
Proof.
  unfold ErrorFctCME. destruct (Req_EM_T d 0) as [E|E]; [discriminate|]. intros H. assert (He : e = Cadd (Cscal (r - Cabs x ^ 2) x) (beta * PI / (2 * d) * sin (Re x * PI / d), beta * PI / (2 * d) * sin (Im x * PI / d))) by congruence.
  subst e. apply (f_equal Ok). destruct x as (x1, x2). assert (Ea : Cabs (Copp (x1, x2)) = Cabs (x1, x2)).
  { unfold Cabs, Copp. f_equal. unfold Cnorm2. cbn. ring. }
  rewrite Ea. unfold Copp, Cadd, Cscal, Re, Im. cbn [fst snd].
  replace (- x1 * PI / d) with (- (x1 * PI / d)) by (field; exact E). replace (- x2 * PI / d) with (- (x2 * PI / d)) by (field; exact E).
  rewrite !sin_neg. apply C_eq; cbn [fst snd]; ring.
Qed.
Lemma sq_eq a b : a ^ 2 - b ^ 2 = 0 <-> Rabs b = Rabs a.
Proof.
  split; intros H.
  - apply Rsqr_eq_abs_0. unfold Rsqr. lra.
  - assert (Rsqr b = Rsqr a) by (rewrite (Rsqr_abs b), (Rsqr_abs a), H; reflexivity). unfold Rsqr in *. lra.
Qed.
Lemma sca_zero r x : ErrorFctSCA r x = Ok C0 <-> x = C0 \/ Rmax (Rabs (Re x)) (Rabs (Im x)) = Rabs r.
Proof.
  destruct x as (a, b). unfold ErrorFctSCA, Re, Im. cbn [fst snd].
  assert (Ok0 : forall u v : R, @Ok (R * R) (u, v) = Ok C0 <-> u = 0 /\ v = 0).
  { intros u v. unfold C0. split; [intros E; assert (Y : (u, v) = (0, 0)) by congruence; apply pair_equal_spec in Y; exact Y|intros (-> & ->); reflexivity]. }
  etransitivity; [apply Ok0|].
  assert (Za : Rabs a = 0 <-> a = 0) by (split; [intros H; destruct (Req_dec a 0) as [E|E]; [exact E|apply Rabs_no_R0 in E; lra]|intros ->; apply Rabs_R0]).
  assert (Zb : Rabs b = 0 <-> b = 0) by (split; [intros H; destruct (Req_dec b 0) as [E|E]; [exact E|apply Rabs_no_R0 in E; lra]|intros ->; apply Rabs_R0]).
  pose proof (Rabs_pos a) as Pa. pose proof (Rabs_pos b) as Pb. pose proof (sq_eq r a) as Sa. pose proof (sq_eq r b) as Sb.
  assert (Xz : (a, b) = C0 <-> a = 0 /\ b = 0) by (unfold C0; apply pair_equal_spec).
  rewrite Xz. destruct (Rle_dec (Rabs b) (Rabs a)) as [L|L].
  - rewrite Rmax_left by exact L. destruct (Req_EM_T (Rabs a) (Rabs b)) as [Q|Q]; rewrite ?Rmult_1_r, ?Rmult_0_r.
    + split.
      * intros (H1 & H2). apply Rmult_integral in H1 as [H1|H1]; [|right; apply Sa; exact H1].
        left. assert (a = 0) by lra. split; [assumption|]. apply Zb. rewrite <- Q. apply Za. assumption.
      * intros [(-> & ->)|H]; [split; ring|]. apply Sa in H as H1. rewrite Q in H. apply Sb in H as H2. rewrite H1, H2. split; ring.
    + split.
      * intros (H1 & _). apply Rmult_integral in H1 as [H1|H1]; [|right; apply Sa; exact H1].
        exfalso. apply Q. assert (a = 0) by lra. assert (Rabs a = 0) by (apply Za; assumption). lra.
      * intros [(-> & ->)|H]; [split; ring|]. apply Sa in H as H1. rewrite H1. split; ring.
  - rewrite Rmax_right by lra. rewrite Rmult_1_r, Rmult_0_r. split.
    + intros (_ & H1). apply Rmult_integral in H1 as [H1|H1]; [|right; apply Sb; exact H1].
      exfalso. assert (b = 0) by lra. assert (Rabs b = 0) by (apply Zb; assumption). lra.
    + intros [(-> & ->)|H]; [split; ring|]. apply Sb in H as H1. rewrite H1. split; ring.
Qed.
Lemma sca_rotate r x e : ErrorFctSCA r x = Ok e -> ErrorFctSCA r (Ci * x)%C = Ok (Ci * e)%C.
Proof.
  destruct x as (a, b). replace (Ci * (a, b))%C with ((- b, a) : C) by (unfold Ci, Cmul; cbn; apply C_eq; cbn; ring).
  unfold ErrorFctSCA, Re, Im. cbn [fst snd]. rewrite Rabs_Ropp. intros H.
  assert (He : e = (16 * a * (r ^ 2 - a ^ 2) * (if Rle_dec (Rabs b) (Rabs a) then 1 else 0),
                    16 * b * (r ^ 2 - b ^ 2) * (if Rle_dec (Rabs b) (Rabs a) then (if Req_EM_T (Rabs a) (Rabs b) then 1 else 0) else 1))) by congruence.
  subst e. apply (f_equal Ok). unfold Ci, Cmul. cbn [fst snd]. apply C_eq; cbn [fst snd].
  all: destruct (Rle_dec (Rabs b) (Rabs a)), (Rle_dec (Rabs a) (Rabs b)), (Req_EM_T (Rabs a) (Rabs b)), (Req_EM_T (Rabs b) (Rabs a)); try lra; ring.
Qed.
