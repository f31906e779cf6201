(** Infinite executions and weak fairness, for the claims that something happens eventually. Specification only. *)
From Coq Require Import Arith List Lia.
Import ListNotations.

(** An infinite execution from [init]: at every moment nothing happens or a step is made. *)
Definition execution {W : Type} (init : W) (step : W -> W -> Prop) (r : nat -> W) : Prop :=
  r 0 = init /\ forall n, r (S n) = r n \/ step (r n) (r (S n)).
(** A process with the steps [act] is scheduled fairly: again and again it makes a step, or it has none to make. *)
Definition fair {W : Type} (act : W -> W -> Prop) (r : nat -> W) : Prop :=
  forall n, exists m, n <= m /\ (act (r m) (r (S m)) \/ ~ exists w, act (r m) w).

(** A quantity that never falls, and that every step of a fairly scheduled process raises, reaches [K] if the
    process has a step to make whenever the quantity is below [K]. *)
Lemma fair_reaches {W : Type} (act : W -> W -> Prop) (r : nat -> W) (f : W -> nat) (K n : nat) :
  fair act r -> (forall m, n <= m -> f (r m) <= f (r (S m))) ->
  (forall m, n <= m -> f (r m) < K -> exists w, act (r m) w) ->
  (forall m, n <= m -> act (r m) (r (S m)) -> f (r m) < f (r (S m))) ->
  exists m, n <= m /\ K <= f (r m).
Proof.
  intros F M E R. assert (forall m m', n <= m -> m <= m' -> f (r m) <= f (r m')) as MM.
  { intros m m' Hm. induction 1 as [|m' Hl IH]; [lia|]. etransitivity; [exact IH|apply M; lia]. }
  induction K as [|K IH]; [exists n; lia|]. destruct IH as (m & Hm & HK); [intros m Hm H; apply E; lia|].
  destruct (F m) as (m' & Hm' & Ha). pose proof (MM m m' Hm Hm') as Hmm. destruct (Nat.le_gt_cases (S K) (f (r m'))) as [H|H]; [exists m'; lia|].
  destruct Ha as [Ha|Ha]; [|exfalso; apply Ha; apply E; lia]. exists (S m'). split; [lia|]. specialize (R m' ltac:(lia) Ha). lia.
Qed.

(** The same if the steps of the process raise the quantity only as long as it is below [K]. *)
Lemma fair_reaches_below {W : Type} (act : W -> W -> Prop) (r : nat -> W) (f : W -> nat) (K n : nat) :
  fair act r -> (forall m, n <= m -> f (r m) <= f (r (S m))) ->
  (forall m, n <= m -> f (r m) < K -> exists w, act (r m) w) ->
  (forall m, n <= m -> f (r m) < K -> act (r m) (r (S m)) -> f (r m) < f (r (S m))) ->
  exists m, n <= m /\ K <= f (r m).
Proof.
  intros F M E R. assert (forall m m', n <= m -> m <= m' -> f (r m) <= f (r m')) as MM.
  { intros m m' Hm. induction 1 as [|m' Hl IH]; [lia|]. etransitivity; [exact IH|apply M; lia]. }
  induction K as [|K IH]; [exists n; lia|]. destruct IH as (m & Hm & HK); [intros m Hm H; apply E; lia|intros m Hm H; apply R; lia|].
  destruct (F m) as (m' & Hm' & Ha). pose proof (MM m m' Hm Hm') as Hmm. destruct (Nat.le_gt_cases (S K) (f (r m'))) as [H|H]; [exists m'; lia|].
  destruct Ha as [Ha|Ha]; [|exfalso; apply Ha; apply E; lia]. exists (S m'). split; [lia|]. specialize (R m' ltac:(lia) H Ha). lia.
Qed.

(** A finite run that then rests is an execution, fair to everybody who has no step left at its end. *)
Fixpoint path {W : Type} (step : W -> W -> Prop) (w : W) (l : list W) : Prop :=
  match l with nil => True | cons w' l' => step w w' /\ path step w' l' end.
Definition rest_at_end {W : Type} (w : W) (l : list W) (n : nat) : W := nth n (cons w l) (last l w).
Lemma last_shift {W : Type} (l : list W) : forall w w', last (cons w' l) w = last l w'.
Proof.
  induction l as [|x l IH]; intros w w'; [reflexivity|]. change (last (cons w' (cons x l)) w) with (last (cons x l) w).
  rewrite (IH w x). symmetry. apply IH.
Qed.
Lemma rest_execution {W : Type} (step : W -> W -> Prop) : forall l w, path step w l -> execution w step (rest_at_end w l).
Proof.
  intros l w H. split; [reflexivity|]. revert w H. induction l as [|w' l IH]; intros w H n.
  - left. unfold rest_at_end. cbn. destruct n as [|[|n]]; reflexivity.
  - destruct H as [H1 H2]. specialize (IH w' H2). assert (forall k, rest_at_end w (w' :: l) (S k) = rest_at_end w' l k) as E.
    { intros k. unfold rest_at_end. cbn [nth]. now rewrite last_shift. }
    destruct n as [|n].
    + right. rewrite (E 0). exact H1.
    + rewrite !E. apply IH.
Qed.
Lemma rest_fair {W : Type} (act : W -> W -> Prop) l w : (~ exists w', act (last l w) w') -> fair act (rest_at_end w l).
Proof.
  intros H n. exists (n + S (length l)). split; [lia|]. right. unfold rest_at_end. rewrite nth_overflow; [exact H|]. cbn [length]. lia.
Qed.
Lemma path_snoc {W : Type} (step : W -> W -> Prop) : forall l w w', path step w l -> step (last l w) w' -> path step w (l ++ [w']).
Proof.
  induction l as [|x l IH]; intros w w' H S; cbn [app path] in *; [now split|]. destruct H as [H1 H2]. split; [exact H1|]. apply IH; [exact H2|]. now rewrite last_shift in S.
Qed.
Lemma rest_last {W : Type} (l : list W) w : rest_at_end w l (length l) = last l w.
Proof.
  unfold rest_at_end. revert w. induction l as [|x l IH]; intros w; [reflexivity|]. cbn [length nth]. rewrite last_shift. apply IH.
Qed.
Lemma rest_before {W : Type} (l : list W) w x : rest_at_end w (l ++ [x]) (length l) = last l w.
Proof.
  unfold rest_at_end. rewrite app_comm_cons, app_nth1 by (cbn; lia). rewrite <- (rest_last l w). unfold rest_at_end. apply nth_indep. cbn. lia.
Qed.
Lemma rest_after {W : Type} (l : list W) w x m : length l < m -> rest_at_end w (l ++ [x]) m = x.
Proof.
  intros H. unfold rest_at_end. rewrite last_last. destruct (Nat.eq_dec m (S (length l))) as [->|Hn].
  - rewrite app_comm_cons, app_nth2 by (cbn; lia). cbn [length]. now rewrite Nat.sub_diag.
  - apply nth_overflow. cbn [length]. rewrite app_length. cbn. lia.
Qed.
