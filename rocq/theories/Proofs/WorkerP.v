From Coq Require Import List Bool Lia.
From Verif Require Import Model.Worker.
Import ListNotations.

Section P.
Context {Msg Val Txt : Type} (packable : Val -> bool) (ascii : Txt -> bool).
Variable handler : list nat -> Msg -> @outcome Val Txt.
Notation process := (process packable ascii handler).
Notation run := (run packable ascii handler).

Lemma run_split pre rq rest : (forall q, In q pre -> snd (process q) = true) -> snd (process rq) = false ->
  run (pre ++ rq :: rest) = map (fun q => fst (process q)) pre ++ fst (process rq) :: map (fun _ => None) rest.
Proof.
  induction pre as [|q pre IH]; intros H Hf.
  - cbn [app Worker.run map]. destruct (process rq) as [r a] eqn:E. cbn [snd] in Hf. subst a. reflexivity.
  - cbn [app Worker.run map]. assert (Hq : snd (process q) = true) by (apply H; now left).
    destruct (process q) as [r a] eqn:E. cbn [snd] in Hq. subst a. cbn [fst]. f_equal. apply IH; [|assumption]. intros q' Hin. apply H. now right.
Qed.
Lemma run_length rqs : length (run rqs) = length rqs.
Proof.
  induction rqs as [|rq rqs IH]; [reflexivity|]. cbn [Worker.run]. destruct (process rq) as [r []]; cbn [length]; f_equal; [assumption|apply map_length].
Qed.
End P.

From Verif Require Import Spec.Service.
Lemma benign_process {Msg Val Txt} (packable : Val -> bool) (ascii : Txt -> bool) (handler : list nat -> Msg -> outcome) rq :
  benign packable ascii handler rq <-> snd (process packable ascii handler rq) = true.
Proof.
  unfold benign, process. destruct rq as [[h m]|]; split.
  - intros (h' & m' & E & H). injection E as <- <-. destruct (handler h m) as [v|t|]; [rewrite H|rewrite H|destruct H]; reflexivity.
  - intros H. exists h, m. split; [reflexivity|]. destruct (handler h m) as [v|t|]; [destruct (packable v)|destruct (ascii t)|]; cbn in H; congruence.
  - intros (h & m & E & _). discriminate.
  - discriminate.
Qed.
Lemma process_wanted {Msg Val Txt} (packable : Val -> bool) (ascii : Txt -> bool) (handler : list nat -> Msg -> outcome) rq r :
  fst (process packable ascii handler rq) = Some r -> wanted handler rq r.
Proof.
  unfold wanted, process. destruct rq as [[h m]|]; [|discriminate]. intros H. exists h, m. split; [reflexivity|].
  destruct (handler h m) as [v|t|]; [destruct (packable v)|destruct (ascii t)|]; cbn in H; congruence.
Qed.
Lemma dead_process {Msg Val Txt} (packable : Val -> bool) (ascii : Txt -> bool) (handler : list nat -> Msg -> outcome) rq :
  snd (process packable ascii handler rq) = false -> fst (process packable ascii handler rq) = None.
Proof.
  unfold process. destruct rq as [[h m]|]; [|reflexivity].
  destruct (handler h m) as [v|t|]; [destruct (packable v)|destruct (ascii t)|]; cbn; congruence.
Qed.

Lemma at_most_one {Msg Val Txt} (packable : Val -> bool) (ascii : Txt -> bool) (handler : list nat -> Msg -> outcome) rqs :
  length (run packable ascii handler rqs) = length rqs /\
  (forall i rq r, nth_error rqs i = Some rq -> nth_error (run packable ascii handler rqs) i = Some (Some r) -> wanted handler rq r) /\
  (forall pre rq rest, rqs = pre ++ rq :: rest -> Forall (benign packable ascii handler) pre -> ~ benign packable ascii handler rq ->
     forall i, length pre <= i -> i < length rqs -> nth_error (run packable ascii handler rqs) i = Some None).
Proof.
  split; [apply run_length|]. split.
  - induction rqs as [|q rqs IH]; intros i rq r Hq Hr; [destruct i; discriminate|]. cbn [run] in Hr.
    destruct (process packable ascii handler q) as [r0 alive] eqn:E. destruct i as [|i]; cbn [nth_error] in *.
    + injection Hq as ->. injection Hr as ->. eapply process_wanted. rewrite E. reflexivity.
    + destruct alive; [eapply IH; eassumption|]. rewrite nth_error_map, Hq in Hr. discriminate.
  - intros pre rq rest -> HF Hn i H1 H2.
    assert (Hd : snd (process packable ascii handler rq) = false).
    { destruct (snd (process packable ascii handler rq)) eqn:E; [|reflexivity]. exfalso. apply Hn. now apply benign_process. }
    rewrite run_split; [|intros q Hq; apply benign_process; rewrite Forall_forall in HF; now apply HF|exact Hd].
    rewrite nth_error_app2 by (now rewrite map_length). rewrite map_length. rewrite (dead_process _ _ _ _ Hd).
    rewrite app_length in H2. cbn [length] in H2.
    destruct (i - length pre) as [|j] eqn:Ej; cbn [nth_error]; [reflexivity|].
    rewrite nth_error_map. destruct (nth_error rest j) eqn:En; [reflexivity|]. apply nth_error_None in En. lia.
Qed.
