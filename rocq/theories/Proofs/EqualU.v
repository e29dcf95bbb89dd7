(** Complete default calls (C51), references (C57) and concrete executions (C50, C52, C53, C78). *)
From Coq Require Import String List ZArith Arith Bool Reals Lia Lra Sorted.
From Verif Require Import Common.Py Common.ListX Common.Cplx Common.SumX.
From Verif Require Import Spec.Seq Spec.Geometry Spec.Metrics Spec.Equal Model.Constellation Model.Decision Model.Equaliser.
From Verif Require Import Proofs.DecisionP Proofs.QualityQ Proofs.EqualP Proofs.EqualQ Proofs.EqualR Proofs.EqualS Proofs.EqualT.
Import ListNotations.
Local Open Scope R_scope.

Definition default_methods : list string :=
  ["cma"; "cma2"; "sgncma"; "mcma"; "rde"; "sbd"; "mddma"; "dd"; "cma_real"; "sgncma_real"; "dd_real"]%string.

Lemma getn0_total {A} (r : list A) : r <> [] -> exists x, getn r 0 = Ok x.
Proof. destruct r as [|x r]; [congruence|]. now exists x. Qed.
Lemma im_nonzero k : (2 <= k)%nat -> exists c, cal_Rconstant_im k = Some c.
Proof.
  intros Hk. unfold cal_Rconstant_im. destruct (forallb _ _) eqn:E; [|eauto]. exfalso. rewrite forallb_forall in E.
  assert (Hex : exists s, In s (qam_alphabet k) /\ Im s <> 0).
  { assert (Hc : swap_sym k \/ k = 3%nat).
    { unfold swap_sym. destruct (Nat.even k) eqn:Ee; [left; left; now split|].
      destruct (Nat.eq_dec k 3); [now right|]. left; right. unfold Nat.odd. rewrite Ee. split; [reflexivity|].
      assert (k <> 4)%nat by (intros ->; discriminate). assert (k <> 2)%nat by (intros ->; discriminate). lia. }
    destruct Hc as [Hs| ->].
    - destruct (qam_alphabet k) as [|s t] eqn:Eq; [exfalso; revert Eq; apply alphabet_nonempty; lia|]. exists s.
      split; [now left|]. apply (alphabet_swap k s Hs). rewrite Eq. now left.
    - destruct alphabet3 as [c [Hc ->]]. exists (Cscal c (ZtoC (-3, -1)%Z)). split; [now left|].
      unfold ZtoC, Cscal, Im. cbn [fst snd]. assert (IZR (-1) = -1) by reflexivity. lra. }
  destruct Hex as [s [Hin Hne]]. specialize (E s Hin). destruct (Req_EM_T (Im s) 0); [contradiction|discriminate].
Qed.
Lemma nth_repeat_row {A} (row : list A) n m : (m < n)%nat -> nth m (repeat row n) [] = row.
Proof. revert m. induction n as [|n IH]; intros m Hm; [lia|]. destruct m; [reflexivity|]. cbn. apply IH. lia. Qed.
Lemma repeat2_nth {A} (a b : list A) p m : (m < 2 * p)%nat -> nth m (repeat_rows a b p) [] = a \/ nth m (repeat_rows a b p) [] = b.
Proof.
  intros H. unfold repeat_rows. destruct (Nat.lt_ge_cases m p).
  - left. rewrite app_nth1 by (rewrite repeat_length; assumption). now apply nth_repeat_row.
  - right. rewrite app_nth2; rewrite repeat_length; [|assumption]. apply nth_repeat_row. lia.
Qed.

(** the references of a default call and the error function accept every output *)
Definition good_row {K} (f : K -> list K -> nat -> result K) (row : list K) : Prop :=
  forall x i, exists e, f x row i = Ok e.
Lemma default_refs p k m : In m default_methods -> (1 <= p)%nat -> (1 <= k)%nat -> (m = "mcma"%string -> (2 <= k)%nat) ->
  lower m = m /\
  if real_method m
  then exists f rows, select_error_real (drop5 m) = Ok f /\ reshape_symbols None m k (2 * p) = Ok (Some (ArrR rows)) /\
    length rows = (2 * p)%nat /\ forall j, (j < 2 * p)%nat -> good_row f (nth j rows [])
  else exists f rows, select_error m = Ok f /\ reshape_symbols None m k p = Ok (Some (ArrC rows)) /\
    length rows = p /\ forall j, (j < p)%nat -> good_row f (nth j rows []).
Proof.
  intros Hin Hp Hk Hmc.
  assert (Hd : (2 * p / 2)%nat = p) by (rewrite (Nat.mul_comm 2); apply Nat.div_mul; lia).
  assert (Hal : map Re (qam_alphabet k) <> [] /\ map Im (qam_alphabet k) <> []).
  { pose proof (alphabet_nonempty k Hk). destruct (qam_alphabet k); [congruence|]. split; discriminate. }
  assert (Hconst : forall f row, (forall x i y t, row = y :: t -> exists e, f x row i = Ok e) -> row <> [] -> good_row (K := C) f row).
  { intros f row H Hne x i. destruct row as [|y t]; [congruence|]. now apply (H x i y t). }
  assert (Hreal : forall m0 a b f, In m0 ["cma_real"; "sgncma_real"; "dd_real"]%string ->
      generate_symbols_for_eq m0 k = Ok (Some (ArrR [a; b])) -> good_row f a -> good_row f b ->
      exists rows, reshape_symbols None m0 k (2 * p) = Ok (Some (ArrR rows)) /\ length rows = (2 * p)%nat /\
        forall j, (j < 2 * p)%nat -> good_row f (nth j rows [])).
  { intros m0 a b f Hm0 Hg Ha Hb. exists (repeat_rows a b p). split; [|split].
    - unfold reshape_symbols. rewrite Hg. cbn [bind].
      assert (memb m0 REAL_VALUED = true) as -> by (destruct Hm0 as [<-|[<-|[<-|[]]]]; reflexivity).
      destruct (Nat.ltb_spec 2 (2 * p)) as [H|H]; [now rewrite Hd|]. assert (p = 1%nat) by lia. subst p. reflexivity.
    - unfold repeat_rows. rewrite app_length, !repeat_length. lia.
    - intros j Hj. destruct (repeat2_nth a b p j Hj) as [-> | ->]; assumption. }
  assert (Hcplx : forall m0 a f, memb m0 REAL_VALUED = false ->
      generate_symbols_for_eq m0 k = Ok (Some (ArrC [a])) -> good_row f a ->
      exists rows, reshape_symbols None m0 k p = Ok (Some (ArrC rows)) /\ length rows = p /\
        forall j, (j < p)%nat -> good_row f (nth j rows [])).
  { intros m0 a f Hm0 Hg Ha. exists (repeat a p). split; [|split].
    - unfold reshape_symbols. rewrite Hg. cbn [bind]. now rewrite Hm0.
    - apply repeat_length.
    - intros j Hj. now rewrite nth_repeat_row by assumption. }
  assert (Hc1 : forall (f : C -> list C -> nat -> result C) a, (forall x i, exists e, f x [a] i = Ok e) -> good_row f [a]) by (intros f a H; exact H).
  destruct Hin as [<-|[<-|[<-|[<-|[<-|[<-|[<-|[<-|[<-|[<-|[<-|[]]]]]]]]]]]];
    (split; [reflexivity|]);
    match goal with |- if real_method ?m then _ else _ =>
      first [change (real_method m) with false; cbn iota | change (real_method m) with true; cbn iota] end.
  - exists cma_error. destruct (Hcplx "cma"%string [(cal_Rconstant k, 0)] cma_error) as [rows H]; [reflexivity|reflexivity|intros x i; eexists; reflexivity|].
    exists rows. split; [reflexivity|exact H].
  - exists cma2_error. destruct (Hcplx "cma2"%string [(cal_Rconstant k, 0)] cma2_error) as [rows H]; [reflexivity|reflexivity|intros x i; eexists; reflexivity|].
    exists rows. split; [reflexivity|exact H].
  - exists cma_error. destruct (Hcplx "sgncma"%string [(cal_Rconstant k, 0)] cma_error) as [rows H]; [reflexivity|reflexivity|intros x i; eexists; reflexivity|].
    exists rows. split; [reflexivity|exact H].
  - destruct (im_nonzero k (Hmc eq_refl)) as [c Hc].
    exists mcma_error. destruct (Hcplx "mcma"%string [(cal_Rconstant_re k, c)] mcma_error) as [rows H];
      [reflexivity|unfold generate_symbols_for_eq; cbn -[cal_Rconstant_re cal_Rconstant_im]; now rewrite Hc|intros x i; eexists; reflexivity|].
    exists rows. split; [reflexivity|exact H].
  - destruct (c54_rde k p Hk) as [row [Hr Hg]]. exists rde_error, (repeat row p). split; [reflexivity|]. split; [exact Hr|].
    split; [apply repeat_length|]. intros j Hj. rewrite nth_repeat_row by assumption. intros x i.
    destruct (Hg x i) as [r [Hr' _]]. eauto.
  - exists sbd_error. destruct (Hcplx "sbd"%string (qam_alphabet k) sbd_error) as [rows H]; [reflexivity|reflexivity|intros x i; eexists; reflexivity|].
    exists rows. split; [reflexivity|exact H].
  - exists mddma_error. destruct (Hcplx "mddma"%string (qam_alphabet k) mddma_error) as [rows H]; [reflexivity|reflexivity|intros x i; eexists; reflexivity|].
    exists rows. split; [reflexivity|exact H].
  - exists ddlms_error. destruct (Hcplx "dd"%string (qam_alphabet k) ddlms_error) as [rows H]; [reflexivity|reflexivity|intros x i; eexists; reflexivity|].
    exists rows. split; [reflexivity|exact H].
  - exists cma_error_real. destruct (Hreal "cma_real"%string [cal_Rconstant_re k] [cal_Rconstant_re k] cma_error_real) as [rows H];
      [cbn; tauto|reflexivity|intros x i; eexists; reflexivity|intros x i; eexists; reflexivity|].
    exists rows. split; [reflexivity|exact H].
  - exists sgncma_error_real. destruct (Hreal "sgncma_real"%string [cal_Rconstant_re k] [cal_Rconstant_re k] sgncma_error_real) as [rows H];
      [cbn; tauto|reflexivity|intros x i; eexists; reflexivity|intros x i; eexists; reflexivity|].
    exists rows. split; [reflexivity|exact H].
  - exists dd_error_real. destruct (Hreal "dd_real"%string (map Re (qam_alphabet k)) (map Im (qam_alphabet k)) dd_error_real) as [rows H];
      [cbn; tauto|reflexivity| | |].
    + intros x i. unfold dd_error_real. destruct (det_real_near x _ (proj1 Hal)) as [s [-> _]]. eexists. reflexivity.
    + intros x i. unfold dd_error_real. destruct (det_real_near x _ (proj2 Hal)) as [s [-> _]]. eexists. reflexivity.
    + exists rows. split; [reflexivity|exact H].
Qed.

Lemma default_call E p l os k n m modes : shape E p l -> (1 <= p)%nat -> (0 < os)%nat -> (1 <= n)%nat -> (1 <= k)%nat ->
  In m default_methods -> (m = "mcma"%string -> (2 <= k)%nat) -> (0 <= cal_training_symbol_len os n l)%Z ->
  match modes with None => True | Some ms => Forall (fun x => x < p)%nat ms end ->
  exists j, prepare E l os k None n None m None modes = Ok j /\
    (Z.of_nat (j_trsyms j) = cal_training_symbol_len os n l)%Z /\
    (forall i, (i < j_trsyms j)%nat -> (i * os + n <= l)%nat) /\
    forall mu ad niter sched, interleaving (j_modes j) (program ad niter (j_trsyms j)) sched ->
      exists w, equalise_signal E l os k mu None n None niter m None modes sched = Ok (w, j).
Proof.
  intros HE Hp Ho Hn Hk Hm Hmc Ht Hmo. destruct (default_refs p k m Hm Hp Hk Hmc) as [Hlow Hrefs].
  set (nm := nrows m p).
  set (ms := match modes with None => seq 0 nm | Some m0 => if real_method m then m0 ++ map (fun x => (x + nm / 2)%nat) m0 else m0 end).
  assert (Hms : Forall (fun x => x < nm)%nat ms).
  { unfold ms, nm, nrows. destruct modes as [m0|].
    - destruct (real_method m); [|assumption]. replace (2 * p / 2)%nat with p by (rewrite (Nat.mul_comm 2), Nat.div_mul; lia).
      apply Forall_app. split; [eapply Forall_impl; [|exact Hmo]; cbn; intros; lia|]. rewrite Forall_forall in *.
      intros x Hx. apply in_map_iff in Hx as [y [<- Hy]]. specialize (Hmo y Hy). lia.
    - rewrite Forall_forall. intros x Hx. apply in_seq in Hx. lia. }
  assert (Hfb : forallb (fun m0 => m0 <? nm)%nat ms = true).
  { apply forallb_forall. rewrite Forall_forall in Hms. intros x Hx. apply Nat.ltb_lt. now apply Hms. }
  assert (Hprep : forall rows, reshape_symbols None m k nm = Ok (Some rows) ->
     prepare E l os k None n None m None modes = Ok (Job (if real_method m then ArrR (convert_sig_to_real E) else ArrC E)
        (Z.to_nat (cal_training_symbol_len os n l)) n
        (if real_method m then TapsR (init_taps 0 1 n nm nm) else TapsC (init_taps C0 C1 n nm nm)) ms rows
        (if real_method m then drop5 m else m))).
  { intros rows Hr. unfold prepare. rewrite (proj1 HE), Hlow.
    assert (Hrm : memb m REAL_VALUED = real_method m) by (unfold real_method; now rewrite Hlow). rewrite Hrm.
    change (if real_method m then (2 * p)%nat else p) with nm. fold ms. rewrite Hfb. cbn [negb].
    destruct (real_method m); cbn [bind]; rewrite Hr; cbn [bind];
      (destruct (Z.ltb_spec (cal_training_symbol_len os n l) 0); [lia|reflexivity]). }
  assert (Hwin : forall i, (i < Z.to_nat (cal_training_symbol_len os n l))%nat -> (i * os + n <= l)%nat).
  { intros i Hi. apply train_len; lia. }
  unfold nm, nrows in Hprep. destruct (real_method m) eqn:Er.
  - destruct Hrefs as [f [rows [Hf [Hr [Hlen Hgood]]]]]. eexists. split; [apply Hprep; exact Hr|]. cbn [j_trsyms j_modes].
    split; [lia|]. split; [exact Hwin|]. intros mu ad niter sched Hi.
    destruct (train_total 0 Rplus Rmult (fun x => x) Rmult f adapt_step_real (convert_sig_to_real E) os n
      (Z.to_nat (cal_training_symbol_len os n l)) rows (2 * p) l niter (real_shape E p l HE) Hlen Hwin mu
      (init_taps 0 1 n (2 * p) (2 * p)) ad ms sched (init_shape 0 1 n (2 * p) (2 * p))) as [st [Hrun _]].
    + unfold nm, nrows in Hms. rewrite Er in Hms. exact Hms.
    + intros m0 x i Hm0 _. apply Hgood. rewrite Forall_forall in Hms. specialize (Hms m0 Hm0). unfold nm, nrows in Hms.
      rewrite Er in Hms. exact Hms.
    + exact Hi.
    + exists (TapsR (s_wx st)). unfold equalise_signal. rewrite (Hprep (ArrR rows) Hr). cbn [bind j_E j_wx j_symbols j_method j_trsyms].
      unfold train_equaliser_realvalued. rewrite Hf. cbn [bind]. rewrite Hrun. reflexivity.
  - destruct Hrefs as [f [rows [Hf [Hr [Hlen Hgood]]]]]. eexists. split; [apply Hprep; exact Hr|]. cbn [j_trsyms j_modes].
    split; [lia|]. split; [exact Hwin|]. intros mu ad niter sched Hi.
    destruct (train_total C0 Cadd Cmul Cconj Cscal f adapt_step E os n
      (Z.to_nat (cal_training_symbol_len os n l)) rows p l niter HE Hlen Hwin mu
      (init_taps C0 C1 n p p) ad ms sched (init_shape C0 C1 n p p)) as [st [Hrun _]].
    + unfold nm, nrows in Hms. rewrite Er in Hms. exact Hms.
    + intros m0 x i Hm0 _. apply Hgood. rewrite Forall_forall in Hms. specialize (Hms m0 Hm0). unfold nm, nrows in Hms.
      rewrite Er in Hms. exact Hms.
    + exact Hi.
    + exists (TapsC (s_wx st)). unfold equalise_signal. rewrite (Hprep (ArrC rows) Hr). cbn [bind j_E j_wx j_symbols j_method j_trsyms].
      unfold train_equaliser. rewrite Hf. cbn [bind]. rewrite Hrun. reflexivity.
Qed.

Lemma real_method_iff m : real_method m = true <-> real_valued (lower m).
Proof.
  unfold real_method, real_valued, memb, REAL_VALUED. rewrite existsb_exists. split.
  - intros [x [Hx He]]. apply String.eqb_eq in He. now rewrite He.
  - intros H. exists (lower m). split; [assumption|apply String.eqb_refl].
Qed.

(** ** C57 *)
Lemma data_memb m : data_aided m \/ decision_directed m \/ blind m ->
  lower m = m /\ memb m DATA_AIDED = (if memb m DATA_AIDED then true else false) /\
  (data_aided m <-> memb m DATA_AIDED = true) /\ (blind m <-> memb (lower m) NONDECISION_BASED = true).
Proof.
  intros H. assert (Hin : In m ["sbd_data"; "dd_data_real"; "sbd"; "mddma"; "dd"; "dd_real"; "cma"; "cma2"; "mcma"; "rde"; "mrde";
    "cma_real"; "sgncma_real"; "sgncma"]%string).
  { unfold data_aided, decision_directed, blind in H. cbn [In] in *. intuition (subst; tauto). }
  cbn [In] in Hin. unfold data_aided, blind.
  repeat (destruct Hin as [<-|Hin]; [split; [reflexivity|split; [reflexivity|split;
    (split; [intros X; cbn in X; try reflexivity; exfalso; intuition discriminate
            |intros X; cbn in X; try discriminate X; cbn; tauto])]]|]). destruct Hin.
Qed.
Lemma equalise_blind E l os k mu wxy n tr niter m a modes sched : memb (lower m) NONDECISION_BASED = true ->
  equalise_signal E l os k mu wxy n tr niter m a modes sched = equalise_signal E l os k mu wxy n tr niter m None modes sched.
Proof.
  intros H. assert (forall nm, reshape_symbols a (lower m) k nm = reshape_symbols None (lower m) k nm) as Hr.
  { intros nm. unfold reshape_symbols. destruct a; [|reflexivity]. now rewrite H. }
  unfold equalise_signal, prepare. now rewrite !Hr.
Qed.
Lemma needs_kind {A} m (sy co : A) r : needs m sy co r -> data_aided m \/ decision_directed m \/ blind m.
Proof. unfold needs. tauto. Qed.
Lemma stage_ok E l os k mu wxy n tr niter m modes sched sy co r a : needs m sy co r ->
  (data_aided m -> a = sy) -> (decision_directed m -> a = co) ->
  equalise_signal E l os k mu wxy n tr niter m (Some a) modes sched = equalise_signal E l os k mu wxy n tr niter m r modes sched.
Proof.
  intros Hn Hd Hc. destruct Hn as [[H ->]|[[H ->]|[H ->]]].
  - now rewrite (Hd H).
  - now rewrite (Hc H).
  - apply equalise_blind. apply (data_memb m); tauto.
Qed.
Lemma not_both m : decision_directed m -> memb m DATA_AIDED = false.
Proof. unfold decision_directed. cbn [In]. intros [<-|[<-|[<-|[<-|[]]]]]; reflexivity. Qed.
Lemma c57 E l os k mu wxy n tr niter m1 m2 modes sched sy co r1 r2 :
  needs m1 sy co r1 -> needs m2 sy co r2 -> (blind m1 \/ (data_aided m1 <-> data_aided m2)) ->
  dual_mode_equalisation E l os k mu wxy n tr niter (m1, m2) (user_symbols [m1; m2] None sy (Some co)) modes sched =
  (let! s1 := equalise_signal E l os k (fst mu) wxy n (fst tr) (fst niter) m1 r1 modes (fst sched) in
   let! s2 := equalise_signal E l os k (snd mu) (Some (fst s1)) n (snd tr) (snd niter) m2 r2 modes (snd sched) in
   let! e := core_apply_filter (ArrC E) l os (fst s2) n modes in Ok (e, fst s2)).
Proof.
  intros H1 H2 Hb. set (a := if memb m2 DATA_AIDED then sy else co).
  assert (Hu : user_symbols [m1; m2] None sy (Some co) = Some a).
  { unfold user_symbols, a. cbn [fold_left]. now destruct (memb m2 DATA_AIDED). }
  rewrite Hu. unfold dual_mode_equalisation. cbn [stage_symbols bind fst snd].
  destruct (data_memb m1 (needs_kind _ _ _ _ H1)) as (_ & _ & D1 & B1).
  destruct (data_memb m2 (needs_kind _ _ _ _ H2)) as (_ & _ & D2 & B2).
  assert (A1 : (data_aided m1 -> a = sy) /\ (decision_directed m1 -> a = co) \/ blind m1).
  { destruct Hb as [Hb|Hb]; [now right|]. left. unfold a. split.
    - intros H. apply Hb, D2 in H. now rewrite H.
    - intros H. destruct (memb m2 DATA_AIDED) eqn:Em; [|reflexivity].
      pose proof (proj2 D2 eq_refl) as H'. apply Hb, D1 in H'. rewrite (not_both m1 H) in H'. discriminate. }
  assert (E1 : forall mu0 tr0 ni0 sc, equalise_signal E l os k mu0 wxy n tr0 ni0 m1 (Some a) modes sc =
              equalise_signal E l os k mu0 wxy n tr0 ni0 m1 r1 modes sc).
  { intros. destruct A1 as [[X Y]|Hbl].
    - now apply (stage_ok E l os k mu0 wxy n tr0 ni0 m1 modes sc sy co r1 a).
    - destruct H1 as [[H _]|[[H _]|[H ->]]].
      + exfalso. unfold data_aided in H. unfold blind in Hbl. cbn [In] in Hbl. intuition (subst; discriminate).
      + exfalso. unfold decision_directed in H. unfold blind in Hbl. cbn [In] in *. intuition (subst; discriminate).
      + apply equalise_blind. now apply B1. }
  rewrite E1. destruct (equalise_signal E l os k (fst mu) wxy n (fst tr) (fst niter) m1 r1 modes (fst sched)) as [s1|]; [cbn [bind]|reflexivity].
  rewrite (stage_ok E l os k (snd mu) (Some (fst s1)) n (snd tr) (snd niter) m2 modes (snd sched) sy co r2 a).
  - reflexivity.
  - assumption.
  - intros H. apply D2 in H. unfold a. now rewrite H.
  - intros H. unfold a. now rewrite (not_both m2 H).
Qed.
Local Ltac ev := cbv -[Rplus Rmult Rminus Rabs IZR pow Ropp adapt_step_real Cadd Cmul Cconj Cscal C0 C1 det_symbol Re Im].
(** one sample per symbol, three samples, one tap: the alphabet has one point, two symbols are sent *)
Lemma c57_false : exists E l sy co mu sched,
  (exists r, (let! s1 := equalise_signal E l 1 1 mu None 1 (Some 2%Z) 1 "sbd_data" (Some sy) None sched in
     equalise_signal E l 1 1 mu (Some (fst s1)) 1 (Some 2%Z) 1 "sbd" (Some co) None sched) = Ok r) /\
  dual_mode_equalisation E l 1 1 (mu, mu) None 1 (Some 2%Z, Some 2%Z) (1%nat, 1%nat) ("sbd_data"%string, "sbd"%string)
     (user_symbols ["sbd_data"; "sbd"]%string None sy (Some co)) None (sched, sched) = Err IndexError.
Proof.
  exists [[C1; C1; C1]], 3%nat, (ArrC [[C1; C1]]), (ArrC [[C1]]), 1, (one_by_one 2 false 1 [0%nat]).
  split; [eexists; ev; reflexivity|ev; reflexivity].
Qed.
Lemma c78_false : exists w,
  dual_mode_equalisation [[C1; C1; C1]] 3 1 2 (1, 1) None 1 (Some 2%Z, Some 2%Z) (1%nat, 1%nat)
    ("dd_data_real"%string, "dd_data_real"%string) (Some (ArrC [[C1; C1]])) (Some [0%nat]) (one_by_one 2 false 1 [0; 1]%nat, one_by_one 2 false 1 [0; 1]%nat)
  = Ok ([], w).
Proof. eexists. ev. reflexivity. Qed.

(** ** C50, C52: two modes, two symbols *)
Definition Ex : list (list R) := [[1; 0]; [0; 1]].
Definition wx0 : list (list (list R)) := [[[1]; [0]]; [[0]; [1]]].
Definition sy0 : list (list R) := [[2]; [2]].
Notation run0 := (run 0 Rplus Rmult (fun x => x) Rmult cma_error_real adapt_step_real Ex 1 1 2 sy0).
Definition race : list (nat * action) :=
  [(0, Comp 0 0); (0, Comp 0 1); (1, Comp 0 0); (1, Comp 0 1); (0, Load 0 1); (1, Load 0 1); (0, Store 0 1)]%nat.
Lemma adapt_half e e0 : e = 0 -> e0 = 1 -> adapt_step_real 1 e e0 = 1 / 2.
Proof. intros -> ->. unfold adapt_step_real. destruct (Rlt_dec _ _); lra. Qed.
Lemma adapt_keep mu e e0 : e0 = 0 -> adapt_step_real mu e e0 = mu.
Proof. intros ->. unfold adapt_step_real. destruct (Rlt_dec _ _); [reflexivity|]. field. Qed.
Lemma Rabs_sq x : Rabs x ^ 2 = x * x. Proof. rewrite <- Rsqr_pow2, <- Rsqr_abs. reflexivity. Qed.
Lemma c50_race : exists s1 s2, run0 (start 0 Ex 2 1 1 wx0) race = Ok s1 /\ run0 s1 [(1%nat, Store 0 1)] = Ok s2 /\
  s_mu s1 = 1 / 2 /\ s_mu s2 = 1.
Proof.
  eexists. eexists. split; [ev; reflexivity|]. split; [ev; reflexivity|]. cbn [s_mu s_reg Nat.eqb]. split.
  - apply adapt_half; rewrite Rabs_sq; ring.
  - apply adapt_keep. rewrite Rabs_sq. ring.
Qed.
Lemma race_interleaving : interleaving [0; 1]%nat (program true 1 2) (race ++ [(1%nat, Store 0 1)]).
Proof.
  split; [repeat constructor; cbn; intuition discriminate|]. split.
  - intros m [<-|[<-|[]]]; reflexivity.
  - intros e. cbn. intuition (subst; cbn; tauto).
Qed.
Lemma c52_adaptive : exists s s',
  run0 (start 0 Ex 2 1 1 wx0) (one_by_one 2 true 1 [1%nat]) = Ok s /\
  run0 (start 0 Ex 2 1 1 wx0) (one_by_one 2 true 1 [0; 1]%nat) = Ok s' /\
  nth_error (s_wx s) 1 = Some [[0]; [2]] /\ nth_error (s_wx s') 1 = Some [[0]; [3 / 2]].
Proof.
  eexists. eexists. split; [ev; reflexivity|]. split; [ev; reflexivity|]. cbn [s_wx nth_error s_mu s_reg Nat.eqb]. split.
  - f_equal. f_equal; [f_equal; rewrite ?Rabs_sq; ring|]. f_equal. f_equal. rewrite ?Rabs_sq. ring.
  - rewrite adapt_half by (rewrite Rabs_sq; ring). f_equal. f_equal; [f_equal; rewrite ?Rabs_sq; field|].
    f_equal. f_equal. rewrite ?Rabs_sq. field.
Qed.

(** ** C55: targets *)
Lemma Rsum_sq_pos (f : C -> R) l : (forall s, In s l -> 0 <= f s) -> (exists s, In s l /\ 0 < f s) -> 0 < Rsum (map f l).
Proof.
  induction l as [|a l IH]; intros H [s [Hs Hp]]; [destruct Hs|]. cbn [map]. rewrite Rsum_cons.
  assert (Hl : 0 <= Rsum (map f l)).
  { clear IH Hs Hp s. induction l as [|b l IH]; [cbn; lra|]. cbn [map]. rewrite Rsum_cons.
    assert (0 <= f b) by (apply H; right; now left). assert (0 <= Rsum (map f l)); [|lra].
    apply IH. intros s [->|Hs]; apply H; [now left|right; now right]. }
  pose proof (H a (or_introl eq_refl)). destruct Hs as [->|Hs]; [lra|].
  assert (0 < Rsum (map f l)); [|lra]. apply IH; [intros t Ht; apply H; now right|now exists s].
Qed.
Lemma ratio_target (f : C -> R) al : al <> [] -> (forall s, In s al -> 0 <= f s) -> (exists s, In s al /\ 0 < f s) ->
  forall g, Rmean (map g al) / Rmean (map f al) * Rsum (map f al) = Rsum (map g al).
Proof.
  intros Hne H0 Hp g. pose proof (Rsum_sq_pos f al H0 Hp). unfold Rmean. rewrite !map_length.
  assert (INR (length al) <> 0) by (apply not_0_INR; destruct al; [congruence|discriminate]). field. split; lra.
Qed.
Lemma c55_target k n m : (1 <= k)%nat -> (m = "cma" \/ m = "cma2" \/ m = "sgncma")%string -> exists r,
  reshape_symbols None m k n = Ok (Some (ArrC (repeat [RtoC r] n))) /\
  r * Rsum (map Cnorm2 (qam_alphabet k)) = Rsum (map (fun s => Cnorm2 s * Cnorm2 s) (qam_alphabet k)).
Proof.
  intros Hk Hm. exists (cal_Rconstant k). split; [destruct Hm as [->|[->| ->]]; reflexivity|].
  unfold cal_Rconstant.
  assert (A : map (fun x => Cabs x ^ 4) (qam_alphabet k) = map (fun s => Cnorm2 s * Cnorm2 s) (qam_alphabet k)).
  { apply map_ext. intros s. rewrite <- Cabs_pow2. ring. }
  assert (B : map (fun x => Cabs x ^ 2) (qam_alphabet k) = map Cnorm2 (qam_alphabet k)) by (apply map_ext; intros s; apply Cabs_pow2).
  rewrite A, B. apply ratio_target.
  - now apply alphabet_nonempty.
  - intros s _. apply Cnorm2_nonneg.
  - destruct (qam_alphabet k) as [|s t] eqn:Eq; [exfalso; revert Eq; now apply alphabet_nonempty|]. exists s. split; [now left|].
    assert (Re s <> 0) by (apply (alphabet_re_neq0 k); [assumption|rewrite Eq; now left]). unfold Cnorm2. unfold Re in H. nra.
Qed.
Lemma c55_target_mcma k n : (2 <= k)%nat -> exists r,
  reshape_symbols None "mcma" k n = Ok (Some (ArrC (repeat [r] n))) /\
  Re r * Rsum (map (fun s => Re s * Re s) (qam_alphabet k)) = Rsum (map (fun s => Re s ^ 4) (qam_alphabet k)) /\
  Im r * Rsum (map (fun s => Im s * Im s) (qam_alphabet k)) = Rsum (map (fun s => Im s ^ 4) (qam_alphabet k)).
Proof.
  intros Hk. destruct (im_nonzero k Hk) as [c Hc]. exists (cal_Rconstant_re k, c). split; [|split].
  - unfold reshape_symbols, generate_symbols_for_eq. cbn -[cal_Rconstant_re cal_Rconstant_im]. now rewrite Hc.
  - unfold cal_Rconstant_re. cbn [Re fst].
    rewrite (map_ext (fun x => Re x ^ 2) (fun s => Re s * Re s)) by (intros; ring). apply ratio_target.
    + apply alphabet_nonempty; lia.
    + intros s _. nra.
    + destruct (qam_alphabet k) as [|s t] eqn:Eq; [exfalso; revert Eq; apply alphabet_nonempty; lia|]. exists s. split; [now left|].
      assert (Re s <> 0) by (apply (alphabet_re_neq0 k); [lia|rewrite Eq; now left]). nra.
  - unfold cal_Rconstant_im in Hc. destruct (forallb _ _) eqn:Ef; [discriminate|]. injection Hc as <-. unfold Im at 1. cbn [snd].
    rewrite (map_ext (fun x => Im x ^ 2) (fun s => Im s * Im s)) by (intros; ring). apply ratio_target.
    + apply alphabet_nonempty; lia.
    + intros s _. nra.
    + assert (Hex : exists s, In s (qam_alphabet k) /\ (if Req_EM_T (Im s) 0 then true else false) = false).
      { revert Ef. generalize (qam_alphabet k). induction l as [|a l IH]; [discriminate|]. cbn [forallb].
        destruct (if Req_EM_T (Im a) 0 then true else false) eqn:Ea.
        - intros H. destruct (IH H) as [s [Hs Hs']]. exists s. split; [now right|assumption].
        - intros _. exists a. split; [now left|assumption]. }
      destruct Hex as [s [Hs Hn]]. exists s. split; [assumption|]. destruct (Req_EM_T (Im s) 0); [discriminate|]. nra.
Qed.
Lemma c55_target_real k p m : (1 <= k)%nat -> (1 <= p)%nat -> (m = "cma_real" \/ m = "sgncma_real")%string -> exists r,
  reshape_symbols None m k (2 * p) = Ok (Some (ArrR (repeat [r] (2 * p)))) /\
  r * Rsum (map (fun s => Re s * Re s) (qam_alphabet k)) = Rsum (map (fun s => Re s ^ 4) (qam_alphabet k)).
Proof.
  intros Hk Hp Hm. exists (cal_Rconstant_re k). split.
  - assert (Hd : (2 * p / 2)%nat = p) by (rewrite (Nat.mul_comm 2); apply Nat.div_mul; lia).
    assert (Hg : generate_symbols_for_eq m k = Ok (Some (ArrR [[cal_Rconstant_re k]; [cal_Rconstant_re k]])))
      by (destruct Hm as [->| ->]; reflexivity).
    unfold reshape_symbols. rewrite Hg. cbn [bind]. assert (memb m REAL_VALUED = true) as -> by (destruct Hm as [->| ->]; reflexivity).
    destruct (Nat.ltb_spec 2 (2 * p)) as [H|H].
    + rewrite Hd. unfold repeat_rows. rewrite <- repeat_app. do 4 f_equal. lia.
    + assert (p = 1%nat) by lia. subst p. reflexivity.
  - unfold cal_Rconstant_re.
    rewrite (map_ext (fun x => Re x ^ 2) (fun s => Re s * Re s)) by (intros; ring). apply ratio_target.
    + now apply alphabet_nonempty.
    + intros s _. nra.
    + destruct (qam_alphabet k) as [|s t] eqn:Eq; [exfalso; revert Eq; now apply alphabet_nonempty|]. exists s. split; [now left|].
      assert (Re s <> 0) by (apply (alphabet_re_neq0 k); [assumption|rewrite Eq; now left]). nra.
Qed.
Lemma c55_cma_real_8 p : (1 <= p)%nat -> exists r,
  reshape_symbols None "cma_real" 3 (2 * p) = Ok (Some (ArrR (repeat [r] (2 * p)))) /\
  r * Rsum (map (fun s => Im s * Im s) (qam_alphabet 3)) <> Rsum (map (fun s => Im s ^ 4) (qam_alphabet 3)).
Proof.
  intros Hp. destruct (c55_target_real 3 p "cma_real" ltac:(lia) Hp (or_introl eq_refl)) as (r & H1 & H2). exists r. split; [exact H1|].
  destruct alphabet3 as (c & Hc & Ha). rewrite Ha in *. unfold ZtoC, Cscal in *. cbn [map Re Im fst snd] in *.
  rewrite !Rsum_cons in *. change (Rsum []) with 0 in *.
  assert (H3 : r * (40 * (c * c)) = 328 * ((c * c) * (c * c))) by (etransitivity; [|etransitivity; [exact H2|]]; ring). clear H2.
  intros H4.
  assert (H5 : r * (8 * (c * c)) = 8 * ((c * c) * (c * c))) by (etransitivity; [|etransitivity; [exact H4|]]; ring).
  assert (Hq : 0 < c * c) by nra. clear H4. revert H3 H5 Hq. generalize (c * c). intros q H3 H5 Hq.
  assert (q * q > 0) by nra. lra.
Qed.
