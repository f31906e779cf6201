(** The exact form of C51: pages that are not level never come out right. *)
From Verif Require Import Base HMap Num DomModel DomSpec ExactSpec DomProofs DomProofs2 DomProofs3 DomProofs4 DomKeyed DomLocal GrowProofs ExactRun ExactSkel ExactMark.
From Coq Require Import Lia.
Local Open Scope N_scope.

(** *** Watching a node *)
(** The list with some [j] replaced by [u]. *)
Definition moved (j u : N) (M M' : list N) : Prop := (forall x, In x M' -> In x M \/ x = u /\ In j M) /\ (forall x, In x M -> x <> j -> In x M').
Lemma moved_refl j u M : moved j u M M.
Proof. split; auto. Qed.
Lemma moved_app j u A M M' B : moved j u M M' -> moved j u (A ++ M ++ B) (A ++ M' ++ B).
Proof.
  intros [H1 H2]. split; intros x; rewrite !in_app_iff.
  - intros [H|[H|H]]; [auto| |auto]. destruct (H1 x H) as [H'|[-> H']]; auto.
  - intros [H|[H|H]] Hn; auto.
Qed.
Lemma moved_one j u x y : x = y \/ x = j /\ y = u -> moved j u [x] [y].
Proof. intros [->|[-> ->]]; [apply moved_refl|]. split; cbn; intros z [<-|[]]; auto. Qed.

(** A search-and-mutate that does not hit the node at the end of the path. *)
Lemma mutate_root_id j u f : (forall x x', el_id x = j -> f x = Some x' -> el_id x' = el_id x \/ el_id x' = u) -> forall c c', mutate j f c = Some c' -> el_id c = el_id c' \/ el_id c = j /\ el_id c' = u.
Proof.
  intros Hf c c' Hm. apply mutate_cases in Hm as [[E Hm]|(_ & ? & ? & ? & ? & _ & -> & _)]; [|left; now destruct c]. destruct (Hf c c' E Hm); auto.
Qed.
Lemma mutate_watch j u f (Lw : list N) :
  (forall x x', el_id x = j -> f x = Some x' -> (el_id x' = el_id x \/ el_id x' = u) /\
     forall q M z y, q <> [] -> way q x = Some (M, z) -> at_path q x = Some y -> incl (z :: M) Lw -> exists M', way q x' = Some (M', z) /\ at_path q x' = Some y /\ moved j u M M') ->
  forall q e e' M z y, mutate j f e = Some e' -> way q e = Some (M, z) -> at_path q e = Some y -> el_children y = [] -> incl (z :: M) Lw -> j <> z \/ In z M \/ f y = None ->
    exists M', way q e' = Some (M', z) /\ at_path q e' = Some y /\ moved j u M M'.
Proof.
  intros Hf. induction q as [|n q IH]; intros e e' M z y Hm Hw Hy Hk Hi Hne.
  { exfalso. cbn in Hw, Hy. injection Hw as <- <-. injection Hy as <-. apply mutate_cases in Hm as [[E Hm]|(Hj & L1 & c & c' & L2 & E & -> & Hn & Hm)]; [destruct Hne as [H|[[]|H]]; congruence|].
    rewrite Hk in E. destruct L1; discriminate. }
  apply mutate_cases in Hm as [[E Hm]|(Hj & L1 & c & c' & L2 & E & -> & Hn & Hm)].
  { destruct (Hf e e' E Hm) as [_ H]. apply (H (n :: q) M z y); auto. discriminate. }
  apply way_cons in Hw as (P1 & d & P2 & M' & E' & Hl & Hw & ->).
  assert (at_path q d = Some y) as Hyd by (cbn [at_path] in Hy; rewrite E', nth_error_app2, <- Hl, Nat.sub_diag in Hy by lia; exact Hy).
  assert (forall l1 x l2 e0 m, el_children e0 = l1 ++ x :: l2 -> length l1 = m -> at_path (m :: q) e0 = at_path q x) as Hat by (intros l1 x l2 e0 m0 E0 <-; cbn [at_path]; now rewrite E0, nth_error_app2, Nat.sub_diag by lia).
  rewrite E in E'. destruct e as [e1 e2 e3 e4 e5 e6 e7]. cbn [with_children el_children el_id] in *. apply app_cases in E' as [(Q & -> & ->)|[(-> & -> & ->)|(Q & -> & ->)]].
  - exists (e1 :: map el_id (L1 ++ c' :: Q) ++ M'). split; [|split].
    + apply way_cons. exists (L1 ++ c' :: Q), d, P2, M'. cbn [el_children el_id]. split; [now rewrite <- app_assoc|]. split; [rewrite <- Hl; now rewrite !app_length|]. auto.
    + rewrite (Hat (L1 ++ c' :: Q) d P2); [exact Hyd|cbn; now rewrite <- app_assoc|rewrite <- Hl; now rewrite !app_length].
    + rewrite !map_app. cbn [map]. rewrite <- !app_assoc. apply (moved_app j u (e1 :: map el_id L1) [el_id c] [el_id c'] (map el_id Q ++ M')). apply moved_one.
      apply (mutate_root_id j u f); [|exact Hm]. intros x x' Hx Hfx. now destruct (Hf x x' Hx Hfx).
  - destruct (IH d c' M' z y Hm Hw Hyd Hk) as (M'' & W1 & A1 & V1).
    { intros x Hx. apply Hi. destruct Hx as [->|Hx]; [now left|right; right; apply in_app_iff; auto]. }
    { destruct Hne as [H|[H|H]]; auto. destruct (N.eq_dec j z) as [->|H']; [|auto]. right. left. destruct H as [H|H]; [congruence|]. apply in_app_iff in H as [H|H]; [|exact H].
      exfalso. apply Hn. apply in_map_iff in H as (x & <- & Hx). unfold ids_of. apply in_flat_map. exists x. split; [exact Hx|apply in_ids_root]. }
    exists (e1 :: map el_id P1 ++ M''). split; [|split].
    + apply way_cons. exists P1, c', P2, M''. auto.
    + rewrite (Hat P1 c' P2); auto.
    + rewrite <- (app_nil_r M'), <- (app_nil_r M''). apply (moved_app j u (e1 :: map el_id P1)). exact V1.
  - exists (e1 :: map el_id P1 ++ M'). split; [|split; [|apply moved_refl]].
    + apply way_cons. exists P1, d, (Q ++ c' :: L2), M'. cbn [el_children el_id]. rewrite <- app_assoc. auto.
    + rewrite (Hat P1 d (Q ++ c' :: L2)); auto. cbn. now rewrite <- app_assoc.
Qed.

Section Max.
Context (max : N).
(** Deletes and renumberings that leave the way to a node alone. *)
Definition calm (K z : N) (o : op) : Prop := gentle K o \/ exists y u, o = Op (dec y) (SetId (dec u)) /\ y <> z /\ u <= K.
Lemma setid_watch K y u q e e' M z x : u <= K -> apply_op max (Op (dec y) (SetId (dec u))) e = Some e' -> way q e = Some (M, z) -> at_path q e = Some x -> el_children x = [] -> Forall (fun i => i <= K) (z :: M) ->
  y <> z \/ In z M -> exists M', way q e' = Some (M', z) /\ at_path q e' = Some x /\ Forall (fun i => i <= K) (z :: M') /\ (In z M -> y <> z -> In z M').
Proof.
  intros Hu Ha Hw Hx Hk HM Hy. unfold apply_op in Ha. cbn [op_id op_instr] in Ha. destruct (parse_uint max (dec y)) as [y'|] eqn:Ey; [|discriminate]. destruct (parse_uint max (dec u)) as [u'|] eqn:Eu; [|discriminate].
  apply parse_dec_only in Ey, Eu. subst y' u'.
  destruct (mutate_watch y u (fun x => Some (with_id u x)) (z :: M)) with (q := q) (e := e) (e' := e') (M := M) (z := z) (y := x) as (M' & W1 & A1 & [V1 V2]); auto; [|apply incl_refl|tauto|].
  - intros [x1 x2 x3 x4 x5 x6 x7] x' Ex [= <-]. cbn in Ex. subst x1. cbn [with_id el_id]. split; [auto|]. intros q0 M0 z0 y0 Hq Hw0 Hy0 _. destruct q0 as [|n q0]; [congruence|].
    apply way_cons in Hw0 as (P1 & d & P2 & M1 & E' & Hl & Hw0 & ->). cbn [el_children el_id] in *. exists (u :: map el_id P1 ++ M1). split; [|split].
    + apply way_cons. exists P1, d, P2, M1. auto.
    + exact Hy0.
    + apply (moved_app y u [] [y] [u]). apply moved_one. auto.
  - exists M'. split; [exact W1|]. split; [exact A1|]. rewrite Forall_forall in HM |- *. split.
    + intros i [<-|Hi]; [apply HM; now left|]. destruct (V1 i Hi) as [H|[-> _]]; [apply HM; now right|exact Hu].
    + intros Hz Hne. apply V2; auto.
Qed.
(** Ways of nodes whose own content may change. *)
Lemma setid_way K y u q : forall e e' M z, u <= K -> apply_op max (Op (dec y) (SetId (dec u))) e = Some e' -> way q e = Some (M, z) -> Forall (fun i => i <= K) (z :: M) ->
  y <> z -> exists M', way q e' = Some (M', z) /\ Forall (fun i => i <= K) (z :: M').
Proof.
  intros e e' M z Hu Ha. unfold apply_op in Ha. cbn [op_id op_instr] in Ha. destruct (parse_uint max (dec y)) as [y'|] eqn:Ey; [|discriminate]. destruct (parse_uint max (dec u)) as [u'|] eqn:Eu; [|discriminate].
  apply parse_dec_only in Ey, Eu. subst y' u'. clear -Hu Ha. revert e e' M z Ha.
  assert (forall c c', mutate y (fun x => Some (with_id u x)) c = Some c' -> el_id c = el_id c' \/ el_id c = y /\ el_id c' = u) as Hroot.
  { apply mutate_root_id. intros [x1 x2 x3 x4 x5 x6 x7] x' _ [= <-]. auto. }
  induction q as [|n q IH]; intros e e' M z Hm Hw HM Hy.
  - cbn in Hw |- *. injection Hw as <- <-. destruct (Hroot _ _ Hm) as [<-|[E _]]; [eauto|congruence].
  - apply way_cons in Hw as (P1 & d & P2 & M' & E' & Hl & Hw & ->). apply mutate_cases in Hm as [[E [= <-]]|(Hj & L1 & c & c' & L2 & E & -> & Hn & Hm)].
    + exists (u :: map el_id P1 ++ M'). split; [apply way_cons; exists P1, d, P2, M'; destruct e; auto|]. inversion HM as [|? ? H1 H2]; subst. inversion H2; subst. constructor; [exact H1|]. now constructor.
    + rewrite E in E'. destruct e as [e1 e2 e3 e4 e5 e6 e7]. cbn [with_children el_children el_id] in *. rewrite Forall_forall in HM. apply app_cases in E' as [(Q & -> & ->)|[(-> & -> & ->)|(Q & -> & ->)]].
      * exists (e1 :: map el_id (L1 ++ c' :: Q) ++ M'). split; [apply way_cons; exists (L1 ++ c' :: Q), d, P2, M'; cbn [el_children el_id]; split; [now rewrite <- app_assoc|]; split; [rewrite <- Hl; now rewrite !app_length|auto]|].
        apply Forall_forall. intros i Hi. cbn [In] in Hi. rewrite map_app, !in_app_iff in Hi. cbn [map In] in Hi.
        assert (In i (z :: e1 :: map el_id (L1 ++ c :: Q) ++ M') \/ i = u) as [H|H]; [|now apply HM|now subst]. cbn [In]. rewrite map_app, !in_app_iff. cbn [map In].
        destruct (Hroot _ _ Hm) as [Er|[_ Er]]; [rewrite <- Er in Hi; tauto|rewrite Er in Hi; destruct Hi as [Hi|[Hi|[[Hi|[Hi|Hi]]|Hi]]]; try tauto; right; now subst].
      * destruct (IH d c' M' z Hm Hw) as (M'' & W1 & F1); auto.
        { apply Forall_forall. intros i Hi. apply HM. cbn [In] in *. rewrite in_app_iff. tauto. }
        exists (e1 :: map el_id P1 ++ M''). split; [apply way_cons; exists P1, c', P2, M''; auto|]. rewrite Forall_forall in F1. apply Forall_forall. intros i Hi. cbn [In] in *. rewrite in_app_iff in Hi.
        destruct Hi as [Hi|[Hi|[Hi|Hi]]]; [apply F1; auto|apply HM; auto|apply HM; rewrite in_app_iff; auto|apply F1; auto].
      * exists (e1 :: map el_id P1 ++ M'). split; [|now apply Forall_forall]. apply way_cons. exists P1, d, (Q ++ c' :: L2), M'. cbn [el_children el_id]. rewrite <- app_assoc. auto.
Qed.
Lemma calm_ways K os q z : Forall (calm K z) os -> forall e e' M, apply max os e = Some e' -> way q e = Some (M, z) -> Forall (fun i => i <= K) (z :: M) ->
  exists M', way q e' = Some (M', z) /\ Forall (fun i => i <= K) (z :: M').
Proof.
  induction 1 as [|o os Ho _ IH]; intros e e' M; cbn [apply]; [intros [= <-]; eauto|]. destruct (apply_op max o e) as [e1|] eqn:E; [|discriminate]. intros Ha Hw HM.
  destruct Ho as [Ho|(y & u & -> & Hy & Hu)].
  - apply (IH e1 e' M Ha); [|exact HM]. eapply gentle_path; eauto.
  - destruct (setid_way K y u q e e1 M z Hu E Hw HM Hy) as (M' & W1 & F1). eauto.
Qed.
(** *** A node whose id is on the way to it is never hit *)
(** The operation does not name the id [z]. *)
Definition quiet (z : N) (o : op) : Prop := (exists j, op_id o = dec j /\ j <> z) /\ match op_instr o with CreateTag _ p => exists j, p = Some (dec j) /\ j <> z | _ => True end.
Lemma gentle_watch K o e e' q M z x : gentle K o -> apply_op max o e = Some e' -> way q e = Some (M, z) -> at_path q e = Some x -> el_children x = [] -> Forall (fun i => i <= K) (z :: M) ->
  (In z M \/ quiet z o) -> way q e' = Some (M, z) /\ at_path q e' = Some x.
Proof.
  intros Hg Ha Hw Hx Hk HM Hn. split; [eapply gentle_path; eauto|]. unfold gentle, aims in Hg. unfold apply_op in Ha. destruct (parse_uint max (op_id o)) as [i|] eqn:Ei; [|discriminate].
  assert (forall j f, (forall x y, f x = Some y -> el_id y = el_id x /\ exists ext, el_children y = el_children x ++ ext) -> mutate j f e = Some e' -> j <> z \/ In z M -> at_path q e' = Some x) as A.
  { intros j f Hf Hm Hj. destruct (mutate_watch j 0 f (z :: M)) with (q := q) (e := e) (e' := e') (M := M) (z := z) (y := x) as (M' & _ & A1 & _); auto; [|apply incl_refl|tauto].
    intros y y' Ey Hy. destruct (Hf y y' Hy) as [E1 (ext & E2)]. split; [auto|]. intros q0 M0 z0 y0 Hq Hw0 Hy0 _. exists M0. split; [eapply appends_path; eauto|]. split; [|apply moved_refl].
    destruct q0 as [|n q0]; [congruence|]. cbn [at_path] in *. rewrite E2. destruct (nth_error (el_children y) n) as [w|] eqn:En; [|discriminate]. rewrite nth_error_app1; [now rewrite En|]. apply nth_error_Some. congruence. }
  assert (i <> z \/ In z M) as Hself.
  { destruct Hn as [Hn|[(j & Hj & Hjz) _]]; [auto|]. left. rewrite Hj in Ei. apply parse_dec_only in Ei. congruence. }
  assert (forall j, op_id o = dec j -> i = j) as Hij by (intros j E; rewrite E in Ei; now apply parse_dec_only in Ei).
  destruct (op_instr o) eqn:Eo; try contradiction; try (apply (A _ _) in Ha; auto; intros y y' [= <-]; destruct y; cbn; split; [reflexivity|]; exists []; now rewrite app_nil_r).
  - destruct Hg as (j & Ej & Hj). apply Hij in Ej as <-. destruct (parse_uint max value) as [v|]; [|discriminate].
    destruct (mutate_watch i v (fun x => Some (with_id v x)) (z :: M)) with (q := q) (e := e) (e' := e') (M := M) (z := z) (y := x) as (M' & _ & A1 & _); auto; [|apply incl_refl|tauto].
    intros [x1 x2 x3 x4 x5 x6 x7] x' Ex [= <-]. cbn in Ex. subst x1. cbn [with_id el_id]. split; [auto|]. intros q0 M0 z0 y0 Hq Hw0 Hy0 _. destruct q0 as [|n q0]; [congruence|].
    apply way_cons in Hw0 as (P1 & d & P2 & M1 & E' & Hl & Hw0 & ->). cbn [el_children el_id] in *. exists (v :: map el_id P1 ++ M1). split; [|split].
    + apply way_cons. exists P1, d, P2, M1. auto.
    + exact Hy0.
    + apply (moved_app i v [] [i] [v]). apply moved_one. auto.
  - destruct parent_id as [p|]; [|discriminate]. destruct (parse_uint max p) as [j|] eqn:Ej; [|discriminate]. apply (A _ _) in Ha; auto.
    + intros y y' [= <-]. destruct y; cbn; split; [reflexivity|]. eauto.
    + destruct Hn as [Hn|[_ Hn]]; [auto|]. rewrite Eo in Hn. destruct Hn as (j' & Hj & Hjz). injection Hj as ->. left. apply parse_dec_only in Ej. congruence.
  - destruct Hg as (j & Ej & Hj). apply Hij in Ej as <-. destruct (find_parent_id e i) as [r|]; [|discriminate].
    destruct (mutate_watch r 0 (fun x => match position (fun c => N.eqb (el_id c) i) (el_children x) with Some n => Some (with_children (remove_at n (el_children x)) x) | None => None end) (z :: M))
      with (q := q) (e := e) (e' := e') (M := M) (z := z) (y := x) as (M' & _ & A1 & _); auto; [|apply incl_refl|rewrite Hk; auto].
    intros y y' Ey Hy. destruct (position _ _) as [n|] eqn:En; [|discriminate]. injection Hy as <-. split; [left; now destruct y|]. intros q0 M0 z0 y0 Hq Hw0 Hy0 Hincl.
    apply position_split in En as (l1 & c & l2 & Ec & Hl & Hc). apply N.eqb_eq in Hc. destruct q0 as [|m q0]; [congruence|]. exists M0.
    apply way_cons in Hw0 as (P1 & d & P2 & M1 & E' & Hm & Hw0 & ->). rewrite Forall_forall in HM.
    assert (forall w, In w (map el_id P1 ++ z0 :: M1) -> w <= K) as Hz.
    { intros w Hw'. apply HM, Hincl. apply in_app_iff in Hw' as [Hw'|[<-|Hw']]; [right; right; apply in_app_iff; auto|now left|right; right; apply in_app_iff; auto]. }
    cbn [at_path] in Hy0. unfold remove_at. rewrite E', nth_error_app2, <- Hm, Nat.sub_diag in Hy0 by lia. cbn [nth_error] in Hy0. rewrite Ec in E' |- *. destruct (app_cases _ _ _ _ _ _ E') as [(Q & -> & ->)|[(-> & -> & ->)|(Q & -> & ->)]].
    + exfalso. assert (i <= K); [|lia]. apply Hz. rewrite map_app. cbn [map]. rewrite !in_app_iff. cbn [In]. auto.
    + exfalso. assert (i <= K); [|lia]. apply Hz. rewrite in_app_iff. right. rewrite <- Hc. eapply way_head. exact Hw0.
    + assert (firstn n ((P1 ++ d :: Q) ++ c :: l2) ++ skipn (S n) ((P1 ++ d :: Q) ++ c :: l2) = P1 ++ d :: (Q ++ l2)) as Ek.
      { rewrite <- Hl, firstn_app, Nat.sub_diag, firstn_O, app_nil_r, firstn_all. rewrite skipn_app. rewrite skipn_all2 by lia. cbn [app].
        replace (S (length (P1 ++ d :: Q)) - length (P1 ++ d :: Q))%nat with 1%nat by lia. cbn [skipn]. now rewrite <- app_assoc. }
      rewrite Ek. destruct y as [x1 x2 x3 x4 x5 x6 x7]; cbn [with_children el_children el_id] in *. split; [|split; [|apply moved_refl]].
      * apply way_cons. exists P1, d, (Q ++ l2), M1. auto.
      * cbn [at_path el_children]. rewrite nth_error_app2, <- Hm, Nat.sub_diag by lia. exact Hy0.
Qed.
Lemma first_watch K os q z x : Forall (calm K z) os -> el_children x = [] -> forall e e' M, apply max os e = Some e' -> way q e = Some (M, z) -> at_path q e = Some x -> Forall (fun i => i <= K) (z :: M) -> In z M ->
  exists M', way q e' = Some (M', z) /\ at_path q e' = Some x /\ Forall (fun i => i <= K) (z :: M') /\ In z M'.
Proof.
  intros Hos Hk. induction Hos as [|o os Ho _ IH]; intros e e' M; cbn [apply]; [intros [= <-]; eauto|]. destruct (apply_op max o e) as [e1|] eqn:E; [|discriminate]. intros Ha Hw Hx HM Hz.
  destruct Ho as [Ho|(y & u & -> & Hy & Hu)].
  - destruct (gentle_watch K o e e1 q M z x Ho E Hw Hx Hk HM (or_introl Hz)) as [W1 A1]. eauto.
  - destruct (setid_watch K y u q e e1 M z x Hu E Hw Hx Hk HM (or_introl Hy)) as (M' & W1 & A1 & F1 & I1). apply (IH e1 e' M'); auto.
Qed.
Lemma last_watch K os q z x : Forall (fun o => calm K z o /\ quiet z o) os -> el_children x = [] -> forall e e' M, apply max os e = Some e' -> way q e = Some (M, z) -> at_path q e = Some x -> Forall (fun i => i <= K) (z :: M) ->
  at_path q e' = Some x.
Proof.
  intros Hos Hk. induction Hos as [|o os [Ho Hq] _ IH]; intros e e' M; cbn [apply]; [intros [= <-]; eauto|]. destruct (apply_op max o e) as [e1|] eqn:E; [|discriminate]. intros Ha Hw Hx HM.
  destruct Ho as [Ho|(y & u & -> & Hy & Hu)].
  - destruct (gentle_watch K o e e1 q M z x Ho E Hw Hx Hk HM (or_intror Hq)) as [W1 A1]. eauto.
  - destruct (setid_watch K y u q e e1 M z x Hu E Hw Hx Hk HM (or_introl Hy)) as (M' & W1 & A1 & F1 & _). apply (IH e1 e' M'); auto.
Qed.
(** The whole of it: the page is quiet about the node but for the renumbering of a node on the way. *)
Lemma whole_watch K osA osB u q z x : Forall (calm K z) osA -> u <= K -> Forall (fun o => calm K z o /\ quiet z o) osB -> el_children x = [] ->
  forall e e' M, apply max (osA ++ Op (dec z) (SetId (dec u)) :: osB) e = Some e' -> way q e = Some (M, z) -> at_path q e = Some x -> Forall (fun i => i <= K) (z :: M) -> In z M -> at_path q e' = Some x.
Proof.
  intros HA Hu HB Hk e e' M Ha Hw Hx HM Hz. rewrite apply_app in Ha. destruct (apply max osA e) as [e1|] eqn:E1; [|discriminate]. cbn [apply] in Ha. destruct (apply_op max _ e1) as [e2|] eqn:E2; [|discriminate].
  destruct (first_watch K osA q z x HA Hk e e1 M E1 Hw Hx HM Hz) as (M1 & W1 & A1 & F1 & I1).
  destruct (setid_watch K z u q e1 e2 M1 z x Hu E2 W1 A1 Hk F1 (or_intror I1)) as (M2 & W2 & A2 & F2 & _).
  apply (last_watch K osB q z x HB Hk e2 e' M2); auto.
Qed.
(** A node that is new after a creation is blank. *)
Lemma created_blank i n j q : forall e e' y, mutate j (fun x => Some (with_children (el_children x ++ [blank i n]) x)) e = Some e' -> at_path q e = None -> at_path q e' = Some y -> y = blank i n.
Proof.
  induction q as [|m q IH]; intros e e' y Hm H0 H1; [discriminate|]. apply mutate_cases in Hm as [[E [= <-]]|(Hj & L1 & c & c' & L2 & E & -> & Hn & Hm)]; destruct e as [e1 e2 e3 e4 e5 e6 e7]; cbn [with_children el_children at_path] in *.
  - destruct (Nat.lt_ge_cases m (length e5)) as [Hl|Hl].
    + rewrite nth_error_app1 in H1 by exact Hl. rewrite H0 in H1. discriminate.
    + rewrite nth_error_app2 in H1 by exact Hl. destruct (m - length e5)%nat as [|[|]]; cbn in H1; try discriminate. destruct q as [|n' q]; [now injection H1 as <-|]. cbn in H1. destruct n'; discriminate.
  - subst e5. destruct (Nat.lt_trichotomy m (length L1)) as [Hl|[->|Hl]].
    + rewrite nth_error_app1 in H0, H1 by exact Hl. rewrite H0 in H1. discriminate.
    + rewrite nth_error_app2, Nat.sub_diag in H0, H1 by lia. cbn [nth_error] in *. eauto.
    + rewrite nth_error_app2 in H0, H1 by lia. replace (m - length L1)%nat with (S (m - length L1 - 1)) in H0, H1 by lia. cbn [nth_error] in *. rewrite H0 in H1. discriminate.
Qed.
End Max.

(** *** Where a page stops being level *)
Definition good (W : list N) : element -> Prop := every (fun x => In (el_id x) W -> bare x).
(** A new element with, in document order, a first node that has an id of [W] and is not bare. *)
Inductive stuck_made (W : list N) : element -> Prop :=
| MadeHere e : In (el_id e) W -> ~ bare e -> stuck_made W e
| MadeIn e E1 x E2 : ~ In (el_id e) W -> el_children e = E1 ++ x :: E2 -> Forall (good W) E1 -> stuck_made W x -> stuck_made W e.
Inductive stuck : list N -> element -> element -> Prop :=
| StuckPush W a b C c C2 D d D2 : el_children a = C ++ c :: C2 -> el_children b = D ++ d :: D2 -> Forall2 (level (el_id a :: W)) C D -> el_id c < el_id d -> stuck W a b
| StuckIn W a b C c C2 D d D2 : el_children a = C ++ c :: C2 -> el_children b = D ++ d :: D2 -> Forall2 (level (el_id a :: W)) C D -> el_id d <= el_id c -> stuck (el_id a :: W) c d -> stuck W a b
| StuckNew W a b D E1 e E2 : el_children b = D ++ E1 ++ e :: E2 -> Forall2 (level (el_id a :: W)) (el_children a) D -> Forall (good (el_id a :: W)) E1 -> stuck_made (el_id a :: W) e -> stuck W a b.

Lemma bare_dec e : bare e \/ ~ bare e.
Proof.
  unfold bare. destruct e as [i n [|] [|] [|] [|] k]; cbn; try (left; repeat split; reflexivity); right; intros (H1 & H2 & H3 & H4); discriminate.
Qed.
Lemma made_cases W e : good W e \/ stuck_made W e.
Proof.
  induction e as [i n a l cs t k IH] using element_ind2. set (e := Element i n a l cs t k).
  destruct (in_dec N.eq_dec (el_id e) W) as [Hi|Hi].
  - destruct (bare_dec e) as [Hb|Hb]; [left|right; now apply MadeHere]. constructor; [auto|]. destruct Hb as (_ & _ & Hb & _). rewrite Hb. constructor.
  - assert (Forall (good W) cs \/ exists E1 x E2, cs = E1 ++ x :: E2 /\ Forall (good W) E1 /\ stuck_made W x) as [H|(E1 & x & E2 & E & H1 & H2)].
    { clear e Hi. induction IH as [|c cs Hc _ IHc]; [left; constructor|]. destruct Hc as [Hc|Hc].
      - destruct IHc as [H|(E1 & x & E2 & -> & H1 & H2)]; [left; now constructor|]. right. exists (c :: E1), x, E2. split; [reflexivity|]. split; [now constructor|exact H2].
      - right. exists [], c, cs. auto. }
    + left. constructor; [intros H'; contradiction|exact H].
    + right. eapply MadeIn; eauto.
Qed.
Lemma level_cases b : forall W a, el_id b <= el_id a -> level W a b \/ stuck W a b.
Proof.
  induction b as [bi bn ba bl bc bt bk IH] using element_ind2. set (b := Element bi bn ba bl bc bt bk) in *. intros W a Hle. set (W' := el_id a :: W).
  assert (forall cs, level_list W' cs bc \/ (exists C c C2 D d D2, cs = C ++ c :: C2 /\ bc = D ++ d :: D2 /\ Forall2 (level W') C D /\ (el_id c < el_id d \/ el_id d <= el_id c /\ stuck W' c d))
    \/ (exists D E1 e E2, bc = D ++ E1 ++ e :: E2 /\ Forall2 (level W') cs D /\ Forall (good W') E1 /\ stuck_made W' e)) as H.
  { clear b Hle. induction IH as [|d ds Hd _ IHd]; intros cs; [left; constructor|]. destruct cs as [|c cs].
    - assert (forall l, Forall (good W') l \/ exists E1 x E2, l = E1 ++ x :: E2 /\ Forall (good W') E1 /\ stuck_made W' x) as [H|(E1 & x & E2 & E & H1 & H2)].
      { induction l as [|e l IHl]; [left; constructor|]. destruct (made_cases W' e) as [He|He].
        - destruct IHl as [H|(E1 & x & E2 & -> & H1 & H2)]; [left; now constructor|]. right. exists (e :: E1), x, E2. split; [reflexivity|]. split; [now constructor|exact H2].
        - right. exists [], e, l. auto. }
      + instantiate (1 := d :: ds) in H. left. now constructor.
      + right. right. exists [], E1, x, E2. cbn [app]. split; [exact E|]. split; [constructor|auto].
    - destruct (N.lt_ge_cases (el_id c) (el_id d)) as [Hlt|Hge]; [right; left; exists [], c, cs, [], d, ds; cbn [app]; repeat split; auto|].
      destruct (Hd W' c Hge) as [HL|HS]; [|right; left; exists [], c, cs, [], d, ds; cbn [app]; repeat split; auto].
      destruct (IHd cs) as [H|[(C & c' & C2 & D & d' & D2 & -> & -> & H1 & H2)|(D & E1 & e & E2 & -> & H1 & H2 & H3)]].
      + left. now constructor.
      + right. left. exists (c :: C), c', C2, (d :: D), d', D2. cbn [app]. repeat split; auto.
      + right. right. exists (d :: D), E1, e, E2. cbn [app]. repeat split; auto. }
  destruct (H (el_children a)) as [H1|[(C & c & C2 & D & d & D2 & E1 & E2 & H1 & [H2|[H2 H3]])|(D & E1 & e & E2 & E & H1 & H2 & H3)]].
  - left. now constructor.
  - right. eapply StuckPush; eauto.
  - right. eapply StuckIn; eauto.
  - right. eapply StuckNew; eauto.
Qed.
Lemma good_sk W e : good W e -> good W (sk e).
Proof.
  induction e as [i n a l cs t k IH] using element_ind2. intros H. inversion H as [? H1 H2]; subst. constructor; [rewrite sk_id; intros Hi; now apply bare_sk, H1|]. cbn [sk el_children] in *. clear H H1.
  induction IH as [|c cs Hc _ IHc]; [constructor|]. inversion H2; subst. cbn [map]. constructor; [apply Hc; assumption|apply IHc; assumption].
Qed.
Lemma sk_creates l p : sk_ops (flat_map (fun d => create_from_scratch d p) l) = flat_map (fun d => create_from_scratch d p) (map sk l).
Proof. induction l as [|d l IH]; [reflexivity|]. cbn [map flat_map]. now rewrite sk_app, sk_create, IH. Qed.
Lemma forall_map_sk (P : element -> Prop) l : (forall e, P e -> P (sk e)) -> Forall P l -> Forall P (map sk l).
Proof. intros H. induction 1; cbn [map]; constructor; auto. Qed.

Section Run.
Context (max : N).
Notation runs := (runs max).
(** Creating elements of which the new ids of [W] are bare, as shapes. *)
Lemma good_made W ds (S : N -> Prop) r L k i j : Forall (good W) ds -> numbered_list i ds j -> Forall (proper max) ds -> r <= max -> (forall x, In x (ids_of ds) -> ~ In x (ids_of L)) ->
  (forall x, In x (ids_of ds) -> ~ In x W -> x <> r) -> S r -> (forall x, In x (ids_of ds) -> ~ In x W -> S x) ->
  exists ds', Forall2 view ds' (map sk ds) /\ runs S (sk_ops (flat_map (fun c => create_from_scratch c (Some (dec r))) ds)) (Element r [] [] [] L None k) (Element r [] [] [] (L ++ ds') None k).
Proof.
  intros Hg Hn Hp Hr Hav Hne Sr HS. rewrite sk_creates.
  apply (makes_list max (map sk ds)) with (Q := fun x => In x (ids_of ds) /\ ~ In x W); auto.
  - apply Forall_forall. intros d _. apply make_runs.
  - apply forall_map_sk; auto using proper_sk.
  - rewrite sk_ids_of. now apply numbered_list_range in Hn.
  - now rewrite sk_ids_of.
  - apply (forall_map_sk (good W)) in Hg; [|apply good_sk]. rewrite Forall_forall in Hg |- *. intros d Hd. specialize (Hg d Hd). apply every_ids in Hg. eapply every_impl; [|exact Hg]. cbn beta. intros x [H1 H2].
    destruct (in_dec N.eq_dec (el_id x) W) as [H|H]; [left; auto|right]. split; [|exact H]. rewrite <- sk_ids_of. unfold ids_of. apply in_flat_map. eauto.
  - intros x [H1 H2]. auto.
  - intros x [H1 H2]. auto.
Qed.
Lemma made_run W e : stuck_made W e -> forall r i j, numbered i e j -> proper max e ->
  exists os1 n par os2 q x, create_from_scratch e (Some (dec r)) = os1 ++ Op (dec (el_id x)) (CreateTag n (Some (dec par))) :: os2 /\ at_path q e = Some x /\ In (el_id x) W /\ ~ bare x /\
    forall (S : N -> Prop) L k, r <= max -> (forall y, In y (ids e) -> ~ In y (ids_of L)) -> (forall y, In y (ids e) -> ~ In y W -> y <> r) -> S r -> (forall y, In y (ids e) -> ~ In y W -> S y) ->
      exists T0 T M, runs S (sk_ops os1) (Element r [] [] [] L None k) T0 /\ runs S [Op (dec (el_id x)) (CreateTag [] (Some (dec par)))] T0 (Element r [] [] [] (L ++ [T]) None k) /\
        at_path (length L :: q) T0 = None /\ way q T = Some (M, el_id x) /\ Forall (fun y => y < el_id x) M.
Proof.
  induction 1 as [e Hi Hb|e E1 x0 E2 Hi Ec Hg Hs IH]; intros r i j Hn Hp.
  - destruct e as [ei en ea el ec et ek]. rewrite create_eq. exists [], en, r. eexists. exists [], (Element ei en ea el ec et ek). split; [reflexivity|]. split; [reflexivity|]. split; [exact Hi|]. split; [exact Hb|].
    intros S L k Hr Hav Hne Sr HS. exists (Element r [] [] [] L None k), (blank ei []), []. split; [constructor|]. split; [|split; [|split; [reflexivity|constructor]]].
    + pose proof (every_root _ _ Hp) as [Hm _]. cbn [el_id] in *. eapply runs_cons; [| |discriminate|constructor].
      * intros y Hy. unfold looks in Hy. cbn [op_instr] in Hy. rewrite parse_dec in Hy by exact Hr. congruence.
      * unfold apply_op. cbn [op_id op_instr]. rewrite !parse_dec by assumption. now rewrite mutate_root by reflexivity.
    + cbn [at_path el_children]. assert (nth_error L (length L) = None) as -> by now apply nth_error_None. reflexivity.
  - destruct e as [ei en ea el ec et ek]. cbn [el_children el_id] in *. subst ec. pose proof (every_root _ _ Hp) as [Hm _]. cbn [el_id] in Hm. pose proof (every_children _ _ Hp) as Hpc. cbn [el_children] in Hpc.
    inversion Hn as [? ? ? ? ? ? ? ? Hnc]; subst. apply numbered_list_app in Hnc as (m & N1 & N2). apply numbered_cons in N2 as (jx & Nx & N3). apply Forall_app in Hpc as [P1 P2]. inversion P2 as [|? ? Px P3]; subst.
    destruct (IH ei m jx Nx Px) as (os1 & n & par & os2 & q & x & Ecr & Hx & Hw & Hbx & Hrun). clear IH.
    rewrite create_eq. exists (Op (dec ei) (CreateTag en (Some (dec r))) :: map (Op (dec ei)) (map (fun kv => SetAttribute (fst kv) (snd kv)) ea ++ map (fun x => AttachListener (l_name x) (l_event x)) el
        ++ match et with Some v => [SetText v] | None => [] end) ++ flat_map (fun c => create_from_scratch c (Some (dec ei))) E1 ++ os1), n, par, (os2 ++ flat_map (fun c => create_from_scratch c (Some (dec ei))) E2), (length E1 :: q), x.
    split. { cbn [app]. f_equal. rewrite flat_map_app. cbn [flat_map]. rewrite Ecr. rewrite <- !app_assoc. cbn [app]. reflexivity. }
    split. { cbn [at_path el_children]. rewrite nth_error_app2, Nat.sub_diag by lia. exact Hx. }
    split; [exact Hw|]. split; [exact Hbx|]. intros S L k Hr Hav Hne Sr HS.
    pose proof (numbered_range _ _ _ Nx) as (Rx1 & Rx2 & Rx3 & _). pose proof (numbered_list_range _ _ _ N1) as (RE1 & RE2 & RE3). pose proof (numbered_range _ _ _ Hn) as (Rn1 & Rn2 & Rn3 & Rn4).
    assert (In (el_id x) (ids x0)) as Hix by (eapply at_root_id; eauto). apply Rx3 in Hix.
    set (Sx := fun y => y = ei \/ In y (ids_of (E1 ++ x0 :: E2)) /\ ~ In y W).
    assert (forall y, In y (ids_of E1) -> In y (ids_of (E1 ++ x0 :: E2))) as I1 by (intros y Hy; rewrite ids_of_app, in_app_iff; auto).
    assert (forall y, In y (ids x0) -> In y (ids_of (E1 ++ x0 :: E2))) as I2 by (intros y Hy; rewrite ids_of_app, ids_of_cons, !in_app_iff; auto).
    destruct (good_made W E1 Sx ei [] None (ei + 1) m Hg N1 P1 Hm) as (E1' & V1 & R1).
    { intros y _ []. } { intros y Hy _ ->. apply RE2 in Hy. lia. } { now left. } { intros y Hy Hy'. right. auto. }
    cbn [app] in R1.
    destruct (Hrun Sx E1' None Hm) as (T0 & T & M & Q1 & Q2 & Q3 & Q4 & Q5).
    { intros y Hy. rewrite (views_ids _ _ V1), sk_ids_of. intros Hy'. apply RE2 in Hy'. apply Rx3 in Hy. lia. } { intros y Hy _ ->. apply Rx3 in Hy. lia. } { now left. } { intros y Hy Hy'. right. auto. }
    assert (forall os c c', DomProofs.runs max Sx os c c' -> DomProofs.runs max S os (Element r [] [] [] (L ++ [c]) None k) (Element r [] [] [] (L ++ [c']) None k)) as Lift.
    { intros os c c' R. apply (runs_lift max Sx S); [exact R| |].
      - intros y Hy. assert (In y (ei :: ids_of (E1 ++ x0 :: E2)) /\ ~ In y W) as [Hy1 Hy2] by (destruct Hy as [->|[Hy Hy']]; split; cbn; auto). split; [now apply Hne|now apply Hav].
      - intros y [->|[Hy Hy']]; apply HS; cbn [ids]; auto; [now left|now right]. }
    exists (Element r [] [] [] (L ++ [T0]) None k), (Element ei [] [] [] (E1' ++ [T]) None None), (ei :: map el_id E1' ++ M).
    assert (length E1' = length E1) as HlE by (rewrite (forall2_len _ _ _ V1), map_length; reflexivity).
    split; [|split; [|split; [|split]]].
    + unfold sk_ops. cbn [flat_map sk_op op_instr op_id app]. fold (sk_ops (map (Op (dec ei)) (map (fun kv => SetAttribute (fst kv) (snd kv)) ea ++ map (fun x => AttachListener (l_name x) (l_event x)) el
        ++ match et with Some v => [SetText v] | None => [] end) ++ flat_map (fun c => create_from_scratch c (Some (dec ei))) E1 ++ os1)).
      rewrite !sk_app. assert (forall l, Forall (fun x => sk_op (Op (dec ei) x) = []) l -> sk_ops (map (Op (dec ei)) l) = []) as G.
      { induction 1 as [|y l' H _ IHl]; [reflexivity|]. cbn [map sk_ops flat_map]. rewrite H. exact IHl. }
      rewrite G. 2: { rewrite !Forall_app. split; [|split]; [apply Forall_map, Forall_forall; reflexivity|apply Forall_map, Forall_forall; reflexivity|destruct et; repeat constructor]. }
      cbn [app]. eapply runs_cons; [| |discriminate|eapply runs_app; [apply Lift; exact R1|apply Lift; exact Q1]].
      * intros y Hy. unfold looks in Hy. cbn [op_instr] in Hy. rewrite parse_dec in Hy by exact Hr. congruence.
      * unfold apply_op. cbn [op_id op_instr]. rewrite !parse_dec by assumption. now rewrite mutate_root by reflexivity.
    + apply Lift. exact Q2.
    + cbn [at_path el_children]. rewrite nth_error_app2, Nat.sub_diag by lia. cbn [nth_error]. rewrite <- HlE. exact Q3.
    + apply way_cons. exists E1', T, [], M. cbn [el_children el_id]. auto.
    + constructor; [lia|]. apply Forall_app. split; [|exact Q5]. rewrite (views_map_id _ _ V1), map_map. apply Forall_forall. intros y Hy. apply in_map_iff in Hy as (w & <- & Hw'). rewrite sk_id.
      assert (In (el_id w) (ids_of E1)) as H by (unfold ids_of; apply in_flat_map; exists w; split; [exact Hw'|apply in_ids_root]). apply RE2 in H. lia.
Qed.

Lemma levels_list W C D : Forall2 (level W) C D -> level_list W C D.
Proof. induction 1; constructor; auto. Qed.
Lemma levels_sk W C D : Forall2 (level W) C D -> Forall2 (level W) (map sk C) (map sk D).
Proof. induction 1; cbn [map]; constructor; auto using level_sk. Qed.
Lemma levels_le W C D : Forall2 (level W) C D -> forall m, (forall x, In x (ids_of C) -> x < m) -> Forall (fun x => x < m) (map el_id D).
Proof.
  induction 1 as [|c d C D H _ IH]; intros m Hm; cbn [map]; constructor.
  - inversion H as [? ? ? Hle _]; subst. assert (el_id c < m); [|lia]. apply Hm. rewrite ids_of_cons, in_app_iff. left. apply in_ids_root.
  - apply IH. intros x Hx. apply Hm. rewrite ids_of_cons, in_app_iff. auto.
Qed.
Lemma keeps_list_sk C D : matched_list keeps (map sk C) (map sk D).
Proof. revert D. induction C as [|c C IH]; intros [|d D]; cbn [map]; constructor; auto using keeps_sk. Qed.
Lemma zip_sk C : forall D z, Forall unkeyed C -> Forall unkeyed D -> cat_ops (zip_ops D C) = Some z -> cat_ops (zip_ops (map sk D) (map sk C)) = Some (sk_ops z).
Proof.
  induction C as [|c C IH]; intros [|d D] z Uc Ud Ez; cbn [map zip_ops cat_ops] in *; try (injection Ez as <-; reflexivity). inversion Uc as [|? ? U1 U2]; subst. inversion Ud as [|? ? V1 V2]; subst.
  destruct (diff_to d c) as [o1|] eqn:E1; [|discriminate]. destruct (cat_ops (zip_ops D C)) as [o2|] eqn:E2; [|discriminate]. injection Ez as <-.
  rewrite (diff_sk d c o1 U1 V1 E1), (IH D o2 U2 V2 E2). now rewrite sk_app.
Qed.
Lemma sk_dels l : sk_ops (map (fun c => Op (id_str c) DeleteEl) l) = map (fun c => Op (id_str c) DeleteEl) (map sk l).
Proof. induction l as [|c l IH]; [reflexivity|]. cbn [map sk_ops flat_map sk_op op_instr app]. unfold id_str in *. rewrite sk_id. f_equal. exact IH. Qed.
(** The shape of the page when the first children are done. *)
Lemma prefix_state W a b C R D R' i j i' j' z1 : numbered i a j -> numbered i' b j' -> unkeyed a -> unkeyed b -> proper max a -> proper max b -> i' <= i ->
  el_children a = C ++ R -> el_children b = D ++ R' -> Forall2 (level (el_id a :: W)) C D -> cat_ops (zip_ops D C) = Some z1 ->
  exists D', Forall2 view D' (map sk D) /\
    runs (reach W a b) (sk_ops (diff_own a b ++ map (fun c => Op (id_str c) DeleteEl) (skipn (length (el_children b)) (el_children a)) ++ z1)) (sk a)
      (Element (el_id a) [] [] [] (D' ++ map sk (firstn (length R') R)) None (el_key a)).
Proof.
  intros Na Nb Ua Ub Pa Pb Hi Ea Eb HCD Ez. pose proof (forall2_len _ _ _ HCD) as Hlen.
  pose proof (every_children _ _ Ua) as UC. pose proof (every_children _ _ Ub) as UD. pose proof (every_children _ _ Pa) as PC. pose proof (every_children _ _ Pb) as PD.
  destruct (every_root _ _ Pa) as [Ia _].
  assert (numbered_list (el_id a + 1) (el_children a) j) as Nac by (inversion Na; subst; assumption). assert (numbered_list (el_id b + 1) (el_children b) j') as Nbc by (inversion Nb; subst; assumption).
  assert (el_id a = i) as Eai by now apply numbered_range in Na. assert (el_id b = i') as Ebi by now apply numbered_range in Nb.
  assert (skipn (length (el_children b)) (el_children a) = skipn (length R') R) as Eskip.
  { rewrite Ea, Eb, app_length, skipn_app, skipn_all2 by lia. cbn [app]. f_equal. lia. }
  rewrite Eskip. rewrite Ea in UC, PC, Nac. rewrite Eb in UD, PD, Nbc.
  apply Forall_app in UC as [UC UR]. apply Forall_app in UD as [UD UR']. apply Forall_app in PC as [PC PR]. apply Forall_app in PD as [PD PR'].
  apply numbered_list_app in Nac as (m & NC & NR), Nbc as (m' & ND & NR').
  destruct (comes_zip max (el_id a) W (map sk D)) with (cs := map sk C) (i := el_id a + 1) (j := m) (i' := el_id b + 1) (j' := m') as (z & Ez' & Hz); try now apply numbered_sk.
  { apply Forall_forall. intros d _. apply comes_out. } { apply forall_map_sk; auto using unkeyed_sk. } { apply forall_map_sk; auto using unkeyed_sk. } { apply forall_map_sk; auto using proper_sk. } { apply forall_map_sk; auto using proper_sk. }
  { apply levels_list, levels_sk, HCD. } { apply keeps_list_sk. } { lia. }
  rewrite (zip_sk C D z1 UC UD Ez) in Ez'. injection Ez' as <-.
  assert (forall x, In x (ids_of C) \/ In x (ids_of R) -> In x (ids a)) as Ina by (intros x Hx; apply in_ids_kids; rewrite Ea, ids_of_app, in_app_iff; exact Hx).
  assert (forall x, In x (ids_of D) -> In x (ids b)) as Inb by (intros x Hx; apply in_ids_kids; rewrite Eb, ids_of_app, in_app_iff; auto).
  destruct (Hz (reach W a b) [] (map sk C) (map sk (firstn (length R') R)) [] [] [] None (el_key a)) as (D' & VD & _ & Rz).
  { intros x []. }
  { rewrite firstn_all2 by (rewrite !map_length; lia). apply views_refl. }
  { intros x. rewrite sk_ids_of. intros Hx. left. auto. }
  { intros x. rewrite sk_ids_of. intros Hx Hw. right. split; [auto|]. intros H. apply Hw. now right. }
  rewrite firstn_all2 in VD by (rewrite !map_length; lia). cbn [app] in Rz. exists D'. split; [exact VD|].
  rewrite !sk_app, sk_own, sk_dels. cbn [app]. eapply runs_app; [|exact Rz].
  assert (sk a = Element (el_id a) [] [] [] ((map sk C ++ map sk (firstn (length R') R)) ++ map sk (skipn (length R') R)) None (el_key a)) as ->.
  { rewrite <- !map_app, <- app_assoc, firstn_skipn. rewrite <- Ea. now destruct a. }
  apply deletes_runs; auto.
  - apply views_refl.
  - apply Forall_forall. intros c0 Hc0. apply in_map_iff in Hc0 as (c & <- & Hc). rewrite sk_id.
    assert (In c R) as HcR by (destruct (nth_skip _ _ _ Hc) as (q & _ & Hq); now apply nth_error_In in Hq).
    assert (In (el_id c) (ids_of (skipn (length R') R))) as H1 by (unfold ids_of; apply in_flat_map; exists c; split; [exact Hc|apply in_ids_root]).
    pose proof (numbered_list_range _ _ _ NC) as (Q1 & Q2 & _). pose proof (numbered_list_range _ _ _ NR) as (_ & Q3 & Q4). split; [|split].
    + rewrite Forall_forall in PR. apply (every_root _ _ (PR c HcR)).
    + apply in_ids_skipn in H1. apply Q3 in H1. lia.
    + rewrite ids_of_app, !sk_ids_of, in_app_iff. intros [H|H]; [apply Q2 in H; apply in_ids_skipn in H1; apply Q3 in H1; lia|].
      rewrite <- (firstn_skipn (length R') R) in Q4. rewrite ids_of_app in Q4. apply nodup_app_iff in Q4 as (_ & _ & Q4). exact (Q4 _ H H1).
  - left. apply in_ids_root.
  - intros x Hx. rewrite sk_ids_of in Hx. left. apply Ina. right. now apply in_ids_skipn in Hx.
Qed.

(** *** What the rest of the changeset names *)
Lemma create_form d p o : In o (create_from_scratch d (Some (dec p))) -> (exists j, op_id o = dec j) /\ match op_instr o with CreateTag _ p => exists j, p = Some (dec j) | _ => True end.
Proof. intros H. apply made_says in H as (x & _ & Ho & H). split; [eauto|]. destruct (op_instr o); auto. destruct H as [->|(y & _ & _ & ->)]; eauto. Qed.
Lemma diff_form b : forall a os o, unkeyed a -> unkeyed b -> diff_to b a = Some os -> In o os -> (exists j, op_id o = dec j) /\ match op_instr o with CreateTag _ p => exists j, p = Some (dec j) | _ => True end.
Proof.
  intros a os o Ua Ub E Ho. destruct (diff_origin b a os Ua Ub E o Ho) as [q c d X1 X2 X3|X|q c d n e X1 X2 X3 X4 X5].
  - apply in_app_or in X3 as [X3|X3].
    + apply own_says in X3. assert (exists j, op_id o = dec j) as Hj by (destruct (op_instr o); cbn in X3; try contradiction; first [eexists; exact X3|destruct X3 as [X3 _]; eexists; exact X3]). split; [exact Hj|]. destruct (op_instr o); try exact I. contradiction.
    + apply id_says in X3 as [-> _]. cbn. split; [eauto|exact I].
  - pose proof (diff_aims b a os Ua Ub E) as Ha. rewrite Forall_forall in Ha. specialize (Ha o Ho). unfold aims in Ha. rewrite X in *. split; [|exact I]. destruct Ha as (j & Hj & _). eauto.
  - eapply create_form. exact X5.
Qed.
Lemma form_quiet z o : (exists j, op_id o = dec j) /\ match op_instr o with CreateTag _ p => exists j, p = Some (dec j) | _ => True end -> ~ names o z -> quiet z o.
Proof.
  intros [(j & Hj) Hp] Hn. unfold names in Hn. split; [exists j; split; [exact Hj|intros Hz; subst j; auto]|]. destruct (op_instr o) eqn:E; auto. destruct Hp as (y & ->). exists y. split; [reflexivity|]. intros Hz. subst y. apply Hn. right. eauto.
Qed.
Lemma zip_quiet z C D os : Forall unkeyed C -> Forall unkeyed D -> cat_ops (zip_ops D C) = Some os -> ~ In z (ids_of C) -> ~ In z (ids_of D) -> Forall (quiet z) os.
Proof.
  intros Uc Ud E Hc Hd. apply Forall_forall. intros o Ho. destruct (zip_split _ _ _ _ E Ho) as (n & c & d & os' & H1 & H2 & H3 & H4). rewrite Forall_forall in Uc, Ud. apply nth_error_In in H1, H2.
  apply form_quiet; [exact (diff_form d c os' o (Uc c H1) (Ud d H2) H3 H4)|]. intros Hn. destruct (diff_names d c os' o z (Uc c H1) (Ud d H2) H3 H4 Hn) as [H|H]; [apply Hc|apply Hd]; unfold ids_of; apply in_flat_map; eauto.
Qed.
Lemma creates_quiet z r ds : r <> z -> ~ In z (ids_of ds) -> Forall (quiet z) (flat_map (fun d => create_from_scratch d (Some (dec r))) ds).
Proof.
  intros Hr Hd. apply Forall_flat_map, Forall_forall. intros d Hin. apply Forall_forall. intros o Ho. apply form_quiet; [eapply create_form; eauto|]. intros Hn.
  destruct (create_names d _ o z Ho Hn) as [H|H]; [apply Hd; unfold ids_of; apply in_flat_map; eauto|]. injection H as H. apply dec_inj in H. congruence.
Qed.

(** *** The moment a page gets stuck *)
Definition jam_push (W : list N) (a b : element) (os : list op) (i j : N) : Prop := exists os1 osm os2 k k' p q T M L d,
  os = os1 ++ osm ++ Op (dec k) (SetId (dec k')) :: os2 /\ i < k < j /\ k < k' /\ k' <= max /\ runs (reach W a b) (sk_ops os1) (sk a) T /\ way p T = Some (M, k) /\ way q T = Some (L, k) /\ leftof p q /\
  Forall (fun x => x < k) M /\ Forall (fun x => x < k) L /\ Forall (gentle k) osm /\ Forall (calm k k) os2 /\ at_path q b = Some d /\ el_id d = k'.
Definition jam_new (W : list N) (a b : element) (os : list op) (i j : N) : Prop := exists os1 n par os2 q K T0 T M x,
  os = os1 ++ Op (dec (el_id x)) (CreateTag n (Some (dec par))) :: os2 /\ i <= K < j /\ el_id x <= K /\
  runs (reach W a b) (sk_ops os1) (sk a) T0 /\ runs (reach W a b) [Op (dec (el_id x)) (CreateTag [] (Some (dec par)))] T0 T /\ at_path q T0 = None /\ way q T = Some (M, el_id x) /\ Forall (fun y => y <= K) M /\
  at_path q b = Some x /\ ~ bare x /\
  (In (el_id x) W /\ Forall (calm K (el_id x)) os2 \/
   In (el_id x) M /\ In (el_id x) (ids a) /\ exists osA u osB, os2 = osA ++ Op (dec (el_id x)) (SetId (dec u)) :: osB /\ Forall (calm K (el_id x)) osA /\ u <= K /\ Forall (fun o => calm K (el_id x) o /\ quiet (el_id x) o) osB).

Lemma forall_gentle_calm K z os : Forall (gentle K) os -> Forall (calm K z) os.
Proof. apply Forall_impl. intros o. now left. Qed.
Lemma diff_id_calm K z a b : el_id a <> z -> el_id b <= K -> Forall (calm K z) (diff_id a b).
Proof.
  intros H1 H2. apply Forall_forall. intros o Ho. apply id_says in Ho as [-> _]. right. eauto.
Qed.
Lemma creates_gentle K r ds : Forall (gentle K) (flat_map (fun d => create_from_scratch d (Some (dec r))) ds).
Proof. apply Forall_flat_map, Forall_forall. intros d _. apply create_aims. Qed.

Lemma stuck_run b : forall W a, stuck W a b -> forall i j i' j' os, numbered i a j -> numbered i' b j' -> unkeyed a -> unkeyed b -> proper max a -> proper max b -> i' <= i -> Forall (fun x => x < i) W ->
  diff_to b a = Some os -> jam_push W a b os i j \/ jam_new W a b os i j.
Proof.
  induction b as [bi bn ba bl bc bt bk IH] using element_ind2. set (b := Element bi bn ba bl bc bt bk) in *. intros W a Hs i j i' j' os Na Nb Ua Ub Pa Pb Hi HW Eos.
  pose proof (every_children _ _ Ua) as UC. pose proof (every_children _ _ Ub) as UD. pose proof (every_children _ _ Pa) as PC. pose proof (every_children _ _ Pb) as PD.
  destruct (every_root _ _ Pa) as [Ia _].
  assert (numbered_list (el_id a + 1) (el_children a) j) as Nac by (inversion Na; subst; assumption). assert (numbered_list (el_id b + 1) (el_children b) j') as Nbc by (inversion Nb; subst; assumption).
  assert (el_id a = i) as Eai by now apply numbered_range in Na. assert (el_id b = i') as Ebi by now apply numbered_range in Nb.
  destruct (diff_parts a b os Ua Ub Eos) as (z & Ez & ->).
  assert (forall C c C2 D d D2, el_children a = C ++ c :: C2 -> el_children b = D ++ d :: D2 -> Forall2 (level (el_id a :: W)) C D ->
    exists z1 o z2 D' m jc m' jd, z = z1 ++ o ++ z2 /\ diff_to d c = Some o /\ Forall2 view D' (map sk D) /\ length D' = length C /\
      runs (reach W a b) (sk_ops (diff_own a b ++ map (fun c => Op (id_str c) DeleteEl) (skipn (length (el_children b)) (el_children a)) ++ z1)) (sk a)
        (Element (el_id a) [] [] [] (D' ++ sk c :: map sk (firstn (length D2) C2)) None (el_key a)) /\
      numbered_list (el_id b + 1) D m' /\ numbered m c jc /\ numbered m' d jd /\ jc <= j /\ unkeyed c /\ unkeyed d /\ proper max c /\ proper max d /\ i < m /\ i' < m' /\ el_id c = m /\ el_id d = m' /\
      Forall (fun x => x < m) (el_id a :: map el_id D') /\
      (forall x, In x (ids_of D') -> x < m') /\
      (forall K, K < jc -> Forall (gentle K) (z2 ++ flat_map (fun d => create_from_scratch d (Some (id_str a))) (skipn (length (el_children a)) (el_children b)))) /\
      (forall v, In v (ids c) -> In v (ids d) -> Forall (quiet v) (z2 ++ flat_map (fun d => create_from_scratch d (Some (id_str a))) (skipn (length (el_children a)) (el_children b))))) as Common.
  { intros C c C2 D d D2 Ea Eb HCD. pose proof (forall2_len _ _ _ HCD) as Hlen. rewrite Ea, Eb in Ez. destruct (zip_app_some _ _ _ _ _ _ _ (eq_sym Hlen) Ez) as (z1 & o & z2 & -> & E1 & Eo & E2).
    destruct (prefix_state W a b C (c :: C2) D (d :: D2) i j i' j' z1 Na Nb Ua Ub Pa Pb Hi Ea Eb HCD E1) as (D' & VD & R1). cbn [length firstn map] in R1.
    rewrite Ea in UC, PC, Nac. rewrite Eb in UD, PD, Nbc.
    apply Forall_app in UC as [UC UC2]. apply Forall_app in UD as [UD UD2]. apply Forall_app in PC as [PC PC2]. apply Forall_app in PD as [PD PD2].
    inversion UC2 as [|? ? Uc UC3]; subst. inversion UD2 as [|? ? Ud UD3]; subst. inversion PC2 as [|? ? Pc PC3]; subst. inversion PD2 as [|? ? Pd PD3]; subst.
    apply numbered_list_app in Nac as (m & NC & NC2), Nbc as (m' & ND & ND2). apply numbered_cons in NC2 as (jc & Nc & NC3), ND2 as (jd & Nd & ND3).
    pose proof (numbered_range _ _ _ Nc) as (Rc1 & Rc2 & Rc3 & _). pose proof (numbered_range _ _ _ Nd) as (Rd1 & Rd2 & Rd3 & _).
    pose proof (numbered_list_range _ _ _ NC) as (RC1 & RC2 & _). pose proof (numbered_list_range _ _ _ ND) as (RD1 & RD2 & _). pose proof (numbered_list_range _ _ _ NC3) as (RE1 & RE2 & _). pose proof (numbered_list_range _ _ _ ND3) as (RF1 & RF2 & _).
    exists z1, o, z2, D', m, jc, m', jd. split; [reflexivity|]. split; [exact Eo|]. split; [exact VD|]. split; [rewrite (forall2_len _ _ _ VD), map_length; auto|]. split; [exact R1|]. split; [exact ND|]. split; [exact Nc|]. split; [exact Nd|]. split; [exact RE1|].
    split; [exact Uc|]. split; [exact Ud|]. split; [exact Pc|]. split; [exact Pd|]. split; [lia|]. split; [lia|]. split; [exact Rc2|]. split; [exact Rd2|]. split; [|split; [|split]].
    - constructor; [lia|]. rewrite (views_map_id _ _ VD), map_map. rewrite (map_ext (fun x => el_id (sk x)) el_id) by apply sk_id. apply (levels_le _ _ _ HCD). intros x Hx. now apply RC2 in Hx.
    - intros x. rewrite (views_ids _ _ VD), sk_ids_of. intros Hx. now apply RD2 in Hx.
    - intros K HK. apply Forall_app. split; [|apply creates_gentle]. eapply Forall_impl; [|apply (zip_aims _ _ _ UC3 UD3 E2)]. intros o'. apply aims_impl. intros x Hx. apply RE2 in Hx. lia.
    - intros v Hv1 Hv2. apply Rc3 in Hv1. apply Rd3 in Hv2. apply Forall_app. split.
      + apply (zip_quiet v C2 D2 z2 UC3 UD3 E2); [intros Hx; apply RE2 in Hx; lia|intros Hx; apply RF2 in Hx; lia].
      + apply creates_quiet; [lia|]. intros Hx. rewrite Ea, Eb, app_length in Hx. cbn [length] in Hx. rewrite skipn_app, skipn_all2 in Hx by lia. cbn [app] in Hx.
        replace (length C + S (length C2) - length D)%nat with (S (length C2)) in Hx by lia. cbn [skipn] in Hx. apply in_ids_skipn in Hx. apply RF2 in Hx. lia. }
  inversion Hs as [W0 a0 b0 C c C2 D d D2 Ea Eb HCD Hlt|W0 a0 b0 C c C2 D d D2 Ea Eb HCD Hge Hst|W0 a0 b0 D E1 e E2 Eb HCD HE1 Hst]; subst W0 a0 b0.
  - (* pushed back *)
    left. destruct (Common C c C2 D d D2 Ea Eb HCD) as (z1 & o & z2 & D' & m & jc & m' & jd & -> & Eo & VD & HlD & R1 & ND & Nc & Nd & Hjc & Uc & Ud & Pc & Pd & Him & Him' & Ecm & Edm & HD' & _ & Hgen & _). rewrite Ecm, Edm in Hlt.
    destruct (proj2 numbered_way _ _ _ ND m) as (L1 & x & L2 & p & M & EL & Hway & HM).
    { pose proof (proj2 numbered_count _ _ _ ND) as Hc. rewrite (proj2 numbered_seq _ _ _ ND). apply in_map_iff. exists (N.to_nat (m - (el_id b + 1))). split; [lia|]. apply in_seq. lia. }
    destruct (diff_parts c d o Uc Ud Eo) as (zc & Ezc & Eo'). pose proof (numbered_range _ _ _ Nc) as (Rc1 & _).
    match type of Eo' with o = ?A ++ ?B ++ ?Z ++ ?V ++ ?I => set (kos := A ++ B ++ Z ++ V) in *; assert (o = kos ++ [Op (dec m) (SetId (dec m'))]) as Eo2 end.
    { rewrite Eo'. unfold kos. rewrite <- !app_assoc. do 4 f_equal. unfold diff_id, id_str. rewrite Ecm, Edm. destruct (N.eqb_spec m m'); [lia|reflexivity]. }
    exists (diff_own a b ++ map (fun c => Op (id_str c) DeleteEl) (skipn (length (el_children b)) (el_children a)) ++ z1), kos,
      (z2 ++ flat_map (fun d => create_from_scratch d (Some (id_str a))) (skipn (length (el_children a)) (el_children b)) ++ diff_id a b), m, m', (length L1 :: p), [length C],
      (Element (el_id a) [] [] [] (D' ++ sk c :: map sk (firstn (length D2) C2)) None (el_key a)), (el_id a :: map el_id L1 ++ M), (el_id a :: map el_id D'), d.
    split. { rewrite Eo2, <- !app_assoc. reflexivity. }
    split; [lia|]. split; [exact Hlt|]. split; [destruct (every_root _ _ Pd) as [H1 _]; lia|]. split; [exact R1|].
    assert (way (length L1 :: p) (Element (el_id a) [] [] [] D' None (el_key a)) = Some (el_id a :: map el_id L1 ++ M, m)) as Hw.
    { rewrite (view_way _ _ (sk (Element (el_id a) [] [] [] D None (el_key a)))) by (cbn [sk]; constructor; [apply hm_equiv_refl|exact VD]). rewrite sk_way. apply way_cons. exists L1, x, L2, M. cbn [el_children el_id]. auto. }
    split. { apply way_cons in Hw as (P1 & y & P2 & M' & X1 & X2 & X3 & X4). cbn [el_children el_id] in *. apply way_cons. exists P1, y, (P2 ++ sk c :: map sk (firstn (length D2) C2)), M'. cbn [el_children el_id]. rewrite X1, <- app_assoc. auto. }
    split. { apply way_cons. exists D', (sk c), (map sk (firstn (length D2) C2)), []. cbn [el_children el_id]. split; [reflexivity|]. split; [exact HlD|]. split; [cbn; now rewrite sk_id, Ecm|now rewrite app_nil_r]. }
    split. { constructor. rewrite (forall2_len _ _ _ HCD), EL, app_length. cbn. lia. }
    split. { constructor; [lia|exact HM]. }
    split; [exact HD'|]. split; [|split; [|split; [|exact Edm]]].
    + pose proof (diff_aims d c o Uc Ud Eo) as Ha. rewrite Eo2 in Ha. apply Forall_app in Ha as [Ha _]. unfold kos. rewrite !Forall_app.
      assert (forall y, In y (ids_of (el_children c)) -> m < y) as Hkids.
      { intros y Hy. assert (numbered_list (el_id c + 1) (el_children c) jc) as Ncc by (inversion Nc; subst; assumption). apply numbered_list_range in Ncc as (_ & Ncc & _). apply Ncc in Hy. lia. }
      split; [apply own_aims|]. split; [|split; [|apply creates_gentle]].
      * apply Forall_map, Forall_forall. intros c0 Hc0. exists (el_id c0). split; [reflexivity|]. apply Hkids. unfold ids_of. apply in_flat_map. exists c0. split; [|apply in_ids_root]. destruct (nth_skip _ _ _ Hc0) as (q & _ & Hq). now apply nth_error_In in Hq.
      * eapply Forall_impl; [|apply (zip_aims _ _ _ (every_children _ _ Uc) (every_children _ _ Ud) Ezc)]. intros o'. apply aims_impl. exact Hkids.
    + rewrite app_assoc. apply Forall_app. split; [apply forall_gentle_calm, Hgen; lia|apply diff_id_calm; lia].
    + cbn [at_path]. rewrite Eb, nth_error_app2 by (rewrite (forall2_len _ _ _ HCD); lia). now rewrite (forall2_len _ _ _ HCD), Nat.sub_diag.
  - (* in a child *)
    destruct (Common C c C2 D d D2 Ea Eb HCD) as (z1 & o & z2 & D' & m & jc & m' & jd & -> & Eo & VD & HlD & R1 & ND & Nc & Nd & Hjc & Uc & Ud & Pc & Pd & Him & Him' & Ecm & Edm & HD' & HD2 & Hgen & Hqui). rewrite Ecm, Edm in Hge.
    assert (In d bc) as Hin by (change (el_children b) with bc in Eb; rewrite Eb; apply in_app_iff; right; now left). rewrite Forall_forall in IH.
    assert (Forall (fun x => x < m) (el_id a :: W)) as HW' by (constructor; [lia|]; eapply Forall_impl; [|exact HW]; cbn beta; intros; lia).
    pose proof (numbered_range _ _ _ Nc) as (Rc1 & _ & Rc3 & _). pose proof (numbered_range _ _ _ Nd) as (Rd1 & _ & Rd3 & _).
    assert (forall os c1 c2, DomProofs.runs max (reach (el_id a :: W) c d) os c1 c2 -> DomProofs.runs max (reach W a b) os
      (Element (el_id a) [] [] [] (D' ++ c1 :: map sk (firstn (length D2) C2)) None (el_key a)) (Element (el_id a) [] [] [] (D' ++ c2 :: map sk (firstn (length D2) C2)) None (el_key a))) as Lift.
    { intros os0 c1 c2 R. apply (runs_lift max (reach (el_id a :: W) c d)); [exact R| |].
      - intros y [Hy|[Hy Hw]].
        + apply Rc3 in Hy. split; [lia|]. intros H. apply HD2 in H. lia.
        + split; [intros ->; apply Hw; now left|]. intros H. apply HD2 in H. apply Rd3 in Hy. lia.
      - intros y [Hy|[Hy Hw]]; [left|right; split; [|intros H; apply Hw; now right]]; apply in_ids_kids; [rewrite Ea|rewrite Eb]; rewrite ids_of_app, ids_of_cons, !in_app_iff; auto. }
    assert (forall y, In y (ids d) -> i' < y) as Hd by (intros y Hy; apply Rd3 in Hy; lia).
    assert (forall q, at_path (length C :: q) b = at_path q d) as Hatb.
    { intros q. cbn [at_path]. rewrite Eb, nth_error_app2 by (rewrite (forall2_len _ _ _ HCD); lia). now rewrite (forall2_len _ _ _ HCD), Nat.sub_diag. }
    destruct (IH d Hin (el_id a :: W) c Hst m jc m' jd o Nc Nd Uc Ud Pc Pd Hge HW' Eo) as
      [(os1 & osm & os2 & k & k' & p & q & T & M & L & x & -> & Hk & Hkk & Hmax & Hrun & Wp & Wq & Hlq & HM & HL & Hg & Hg2 & Hx & Hxid)
      |(os1 & n & par & os2 & q & K & T0 & T & M & x & -> & HK & HxK & Q1 & Q2 & Q3 & Q4 & Q5 & Q6 & Q7 & Q8)].
    + left. exists ((diff_own a b ++ map (fun c => Op (id_str c) DeleteEl) (skipn (length (el_children b)) (el_children a)) ++ z1) ++ os1), osm,
        (os2 ++ (z2 ++ flat_map (fun d => create_from_scratch d (Some (id_str a))) (skipn (length (el_children a)) (el_children b))) ++ diff_id a b), k, k', (length C :: p), (length C :: q),
        (Element (el_id a) [] [] [] (D' ++ T :: map sk (firstn (length D2) C2)) None (el_key a)), (el_id a :: map el_id D' ++ M), (el_id a :: map el_id D' ++ L), x.
      assert (forall P, Forall (fun x => x < k) P -> Forall (fun x => x < k) (el_id a :: map el_id D' ++ P)) as Hup.
      { intros P HP. change (el_id a :: map el_id D' ++ P) with ((el_id a :: map el_id D') ++ P). apply Forall_app. split; [|exact HP]. eapply Forall_impl; [|exact HD']. cbn beta. intros; lia. }
      split. { rewrite <- !app_assoc. cbn [app]. rewrite <- ?app_assoc. reflexivity. }
      split; [lia|]. split; [exact Hkk|]. split; [exact Hmax|]. split. { rewrite sk_app. eapply runs_app; [exact R1|]. apply Lift. exact Hrun. }
      split. { apply way_cons. exists D', T, (map sk (firstn (length D2) C2)), M. auto. }
      split. { apply way_cons. exists D', T, (map sk (firstn (length D2) C2)), L. auto. }
      split; [now constructor|]. split; [now apply Hup|]. split; [now apply Hup|]. split; [exact Hg|]. split; [|split; [|exact Hxid]].
      * apply Forall_app. split; [exact Hg2|]. apply Forall_app. split; [apply forall_gentle_calm, Hgen; lia|apply diff_id_calm; lia].
      * rewrite Hatb. exact Hx.
    + right. pose proof (at_root_id _ _ _ Q6) as Hxd.
      exists ((diff_own a b ++ map (fun c => Op (id_str c) DeleteEl) (skipn (length (el_children b)) (el_children a)) ++ z1) ++ os1), n, par,
        (os2 ++ (z2 ++ flat_map (fun d => create_from_scratch d (Some (id_str a))) (skipn (length (el_children a)) (el_children b))) ++ diff_id a b), (length C :: q), K,
        (Element (el_id a) [] [] [] (D' ++ T0 :: map sk (firstn (length D2) C2)) None (el_key a)), (Element (el_id a) [] [] [] (D' ++ T :: map sk (firstn (length D2) C2)) None (el_key a)), (el_id a :: map el_id D' ++ M), x.
      split. { rewrite <- !app_assoc. cbn [app]. rewrite <- ?app_assoc. reflexivity. }
      split; [lia|]. split; [exact HxK|]. split. { rewrite sk_app. eapply runs_app; [exact R1|]. apply Lift. exact Q1. }
      split; [apply Lift; exact Q2|]. split. { cbn [at_path el_children]. rewrite nth_error_app2 by lia. rewrite HlD, Nat.sub_diag. exact Q3. }
      split. { apply way_cons. exists D', T, (map sk (firstn (length D2) C2)), M. auto. }
      split. { change (el_id a :: map el_id D' ++ M) with ((el_id a :: map el_id D') ++ M). apply Forall_app. split; [|exact Q5]. eapply Forall_impl; [|exact HD']. cbn beta. intros; lia. }
      split; [rewrite Hatb; exact Q6|]. split; [exact Q7|].
      destruct Q8 as [[Hw Hc]|(HxM & Hxc & osA & u & osB & -> & HA & Hu & HB)].
      * destruct (N.eq_dec (el_id x) (el_id a)) as [Exa|Nxa].
        -- right. split; [rewrite Exa; now left|]. split; [rewrite Exa; apply in_ids_root|].
           exists (os2 ++ z2 ++ flat_map (fun d => create_from_scratch d (Some (id_str a))) (skipn (length (el_children a)) (el_children b))), (el_id b), [].
           split. { rewrite <- !app_assoc. do 3 f_equal. unfold diff_id, id_str. rewrite Exa. destruct (N.eqb_spec (el_id a) (el_id b)) as [Eab|_]; [|reflexivity]. apply Hd in Hxd. lia. }
           split; [apply Forall_app; split; [exact Hc|apply forall_gentle_calm, Hgen; lia]|]. split; [lia|constructor].
        -- left. destruct Hw as [Hw|Hw]; [congruence|]. split; [exact Hw|]. apply Forall_app. split; [exact Hc|]. apply Forall_app. split; [apply forall_gentle_calm, Hgen; lia|apply diff_id_calm; [congruence|lia]].
      * right. split; [right; apply in_app_iff; auto|]. split; [apply in_ids_kids; rewrite Ea, ids_of_app, ids_of_cons, !in_app_iff; auto|].
        exists osA, u, (osB ++ (z2 ++ flat_map (fun d => create_from_scratch d (Some (id_str a))) (skipn (length (el_children a)) (el_children b))) ++ diff_id a b).
        split. { rewrite <- !app_assoc. cbn [app]. reflexivity. }
        split; [exact HA|]. split; [exact Hu|]. pose proof (Rc3 _ Hxc) as Hxr. apply Forall_app. split; [exact HB|]. apply Forall_app. split.
        -- pose proof (Hgen K ltac:(lia)) as F1. pose proof (Hqui _ Hxc Hxd) as F2. rewrite Forall_forall in F1, F2 |- *. intros o' Ho'. split; [left; auto|auto].
        -- apply Forall_forall. intros o' Ho'. apply id_says in Ho' as [-> _]. split; [right; exists (el_id a), (el_id b); repeat split; lia|]. split; [exists (el_id a); split; [reflexivity|lia]|exact I].
  - (* a new element *)
    right. pose proof (forall2_len _ _ _ HCD) as Hlen. assert (Forall unkeyed D) as UDD by (rewrite Eb in UD; now apply Forall_app in UD).
    assert (cat_ops (zip_ops D (el_children a)) = Some z) as Ez1.
    { rewrite Eb in Ez. rewrite <- (app_nil_r (el_children a)) in Ez. rewrite zip_app in Ez by auto. rewrite cat_app in Ez. destruct (cat_ops (zip_ops D (el_children a))) as [z1|]; [|discriminate].
      assert (forall l, zip_ops l [] = []) as Hnil by (intros [|]; reflexivity). rewrite Hnil in Ez. cbn [cat_ops] in Ez. rewrite app_nil_r in Ez. exact Ez. }
    destruct (prefix_state W a b (el_children a) [] D (E1 ++ e :: E2) i j i' j' z Na Nb Ua Ub Pa Pb Hi (eq_sym (app_nil_r _)) Eb HCD Ez1) as (D' & VD & R1). rewrite firstn_nil in R1. cbn [map] in R1. rewrite app_nil_r in R1.
    assert (skipn (length (el_children a)) (el_children b) = E1 ++ e :: E2) as Eskip by (rewrite Eb, skipn_app, skipn_all2 by lia; cbn [app]; replace (length (el_children a) - length D)%nat with O by lia; reflexivity). rewrite Eskip.
    rewrite Eb in PD, Nbc. apply Forall_app in PD as [PD PE]. apply Forall_app in PE as [PE1 PE]. inversion PE as [|? ? Pe PE2]; subst x l.
    apply numbered_list_app in Nbc as (m1 & ND & NE). apply numbered_list_app in NE as (m2 & NE1 & NE). apply numbered_cons in NE as (je & Ne & NE2).
    pose proof (numbered_list_range _ _ _ ND) as (RD1 & RD2 & _). pose proof (numbered_list_range _ _ _ NE1) as (RE1 & RE2 & _). pose proof (numbered_range _ _ _ Ne) as (Re1 & Re2 & Re3 & _).
    assert (forall y, In y (ids_of E1) \/ In y (ids e) -> In y (ids b)) as Inb by (intros y Hy; apply in_ids_kids; rewrite Eb, !ids_of_app, ids_of_cons, !in_app_iff; tauto).
    destruct (good_made (el_id a :: W) E1 (reach W a b) (el_id a) D' (el_key a) m1 m2 HE1 NE1 PE1 Ia) as (E1' & VE & R2).
    { intros y Hy. rewrite (views_ids _ _ VD), sk_ids_of. intros Hy'. apply RD2 in Hy'. apply RE2 in Hy. lia. }
    { intros y _ Hy ->. apply Hy. now left. } { left. apply in_ids_root. } { intros y Hy Hw. right. split; [apply Inb; auto|]. intros H. apply Hw. now right. }
    destruct (made_run (el_id a :: W) e Hst (el_id a) m2 je Ne Pe) as (os1 & n & par & os2 & q & x & Ecr & Hx & Hw & Hbx & Hrun).
    destruct (Hrun (reach W a b) (D' ++ E1') (el_key a) Ia) as (T0 & T & M & Q1 & Q2 & Q3 & Q4 & Q5).
    { intros y Hy. rewrite ids_of_app, (views_ids _ _ VD), (views_ids _ _ VE), !sk_ids_of, in_app_iff. apply Re3 in Hy. intros [Hy'|Hy']; [apply RD2 in Hy'|apply RE2 in Hy']; lia. }
    { intros y _ Hy ->. apply Hy. now left. } { left. apply in_ids_root. } { intros y Hy Hw'. right. split; [apply Inb; auto|]. intros H. apply Hw'. now right. }
    assert (length (D' ++ E1') = (length (el_children a) + length E1)%nat) as HlE by (rewrite app_length, (forall2_len _ _ _ VD), (forall2_len _ _ _ VE), !map_length; lia).
    pose proof (at_root_id _ _ _ Hx) as Hxe. pose proof (Re3 _ Hxe) as Hxr.
    assert (el_id x <= el_id a) as HxK. { destruct Hw as [Hw|Hw]; [lia|]. rewrite Forall_forall in HW. apply HW in Hw. lia. }
    exists ((diff_own a b ++ map (fun c => Op (id_str c) DeleteEl) (skipn (length (el_children b)) (el_children a)) ++ z) ++ flat_map (fun c => create_from_scratch c (Some (dec (el_id a)))) E1 ++ os1), n, par,
      ((os2 ++ flat_map (fun d => create_from_scratch d (Some (dec (el_id a)))) E2) ++ diff_id a b), (length (D' ++ E1') :: q), (el_id a), T0, (Element (el_id a) [] [] [] ((D' ++ E1') ++ [T]) None (el_key a)), (el_id a :: map el_id (D' ++ E1') ++ M), x.
    split. { unfold id_str. rewrite flat_map_app. cbn [flat_map]. rewrite Ecr. rewrite <- !app_assoc. cbn [app]. rewrite <- ?app_assoc. reflexivity. }
    split; [apply numbered_range in Na; lia|]. split; [exact HxK|].
    split. { rewrite !sk_app. rewrite !sk_app in R1. eapply runs_app; [rewrite <- ?app_assoc in *; exact R1|]. eapply runs_app; [exact R2|]. exact Q1. }
    split; [exact Q2|]. split; [exact Q3|]. split. { apply way_cons. exists (D' ++ E1'), T, [], M. cbn [el_children el_id]. auto. }
    split. { constructor; [lia|]. rewrite map_app, !Forall_app. rewrite (views_map_id _ _ VD), (views_map_id _ _ VE), !map_map. rewrite !(map_ext (fun x => el_id (sk x)) el_id) by apply sk_id.
      assert (forall l v, (forall y, In y (ids_of l) -> y < v) -> v <= el_id a -> Forall (fun y => y <= el_id a) (map el_id l)) as G.
      { intros l v Hl Hv. apply Forall_forall. intros y Hy. apply in_map_iff in Hy as (w & <- & Hy). assert (el_id w < v); [|lia]. apply Hl. unfold ids_of. apply in_flat_map. exists w. split; [exact Hy|apply in_ids_root]. }
      split; [split|].
      - apply (G D (el_id x)); [|exact HxK]. intros y Hy. apply RD2 in Hy. lia.
      - apply (G E1 (el_id x)); [|exact HxK]. intros y Hy. apply RE2 in Hy. lia.
      - eapply Forall_impl; [|exact Q5]. cbn beta. intros; lia. }
    split. { cbn [at_path]. rewrite Eb, HlE, Hlen. rewrite app_assoc, nth_error_app2 by (rewrite app_length; lia). rewrite app_length, Nat.sub_diag. exact Hx. }
    split; [exact Hbx|].
    assert (Forall (calm (el_id a) (el_id x)) (os2 ++ flat_map (fun d => create_from_scratch d (Some (dec (el_id a)))) E2)) as Hcalm.
    { apply forall_gentle_calm. apply Forall_app. split; [|apply creates_gentle]. pose proof (create_aims (fun y => el_id a < y) e (Some (dec (el_id a)))) as Ha. rewrite Ecr in Ha. apply Forall_app in Ha as [_ Ha]. now inversion Ha. }
    destruct (N.eq_dec (el_id x) (el_id a)) as [Exa|Nxa].
    + right. split; [rewrite Exa; now left|]. split; [rewrite Exa; apply in_ids_root|]. exists (os2 ++ flat_map (fun d => create_from_scratch d (Some (dec (el_id a)))) E2), (el_id b), [].
      split. { f_equal. unfold diff_id, id_str. rewrite Exa. destruct (N.eqb_spec (el_id a) (el_id b)) as [Eab|_]; [lia|reflexivity]. }
      split; [exact Hcalm|]. split; [lia|constructor].
    + left. destruct Hw as [Hw|Hw]; [congruence|]. split; [exact Hw|]. apply Forall_app. split; [exact Hcalm|apply diff_id_calm; [congruence|lia]].
Qed.

(** So it never becomes the new page. *)
Lemma stuck_never a b i j i' j' os b' : stuck [] a b -> numbered i a j -> numbered i' b j' -> unkeyed a -> unkeyed b -> proper max a -> proper max b -> i' <= i ->
  diff_to b a = Some os -> apply max os a = Some b' -> ~ view b' b.
Proof.
  intros Hs Na Nb Ua Ub Pa Pb Hi Eos Ha V. pose proof (diff_usual _ _ _ Ua Ub Eos) as Hus.
  destruct (stuck_run b [] a Hs i j i' j' os Na Nb Ua Ub Pa Pb Hi (Forall_nil _) Eos) as
      [(os1 & osm & os2 & k & k' & p & q & T & M & L & x & -> & Hk & Hkk & Hmax & Hrun & Wp & Wq & Hlq & HM & HL & Hg1 & Hg2 & Hx & Hxid)
      |(os1 & n & par & os2 & q & K & T0 & T & M & x & -> & HK & HxK & Q1 & Q2 & Q3 & Q4 & Q5 & Q6 & Q7 & Q8)];
    rewrite apply_app in Ha; destruct (apply max os1 a) as [S1|] eqn:E1; try discriminate; apply Forall_app in Hus as [Hus1 Hus2]; pose proof (apply_sk max os1 Hus1 _ _ E1) as E1'.
  - rewrite (runs_apply _ _ _ _ _ Hrun) in E1'. injection E1' as ->. rewrite sk_way in Wp, Wq. rewrite apply_app in Ha.
    destruct (apply max osm S1) as [T1|] eqn:E2; [|discriminate]. cbn [apply] in Ha. destruct (apply_op max _ T1) as [T2|] eqn:E3; [|discriminate].
    assert (forall P, Forall (fun x => x < k) P -> Forall (fun x => x <= k) (k :: P)) as Hle by (intros P HP; constructor; [lia|]; eapply Forall_impl; [|exact HP]; cbn beta; intros; lia).
    pose proof (gentle_paths max k osm p M k Hg1 S1 T1 E2 Wp (Hle _ HM)) as W1. pose proof (gentle_paths max k osm q L k Hg1 S1 T1 E2 Wq (Hle _ HL)) as W2.
    unfold apply_op in E3. cbn [op_id op_instr] in E3. rewrite !parse_dec in E3 by lia.
    assert (way q T2 = Some (L, k)) as W3.
    { apply (rename_left k k' p q Hlq T1 T2 M L k W1 W2); [|exact E3]. intros H. rewrite Forall_forall in HL. apply HL in H. lia. }
    destruct (calm_ways max k os2 q k Hg2 T2 b' L Ha W3 (Hle _ HL)) as (M' & W4 & _). rewrite (view_way _ _ _ V) in W4. apply way_at in W4 as (y & Hy & Hyid). rewrite Hx in Hy. injection Hy as <-. lia.
  - rewrite (runs_apply _ _ _ _ _ Q1) in E1'. injection E1' as ->. cbn [apply] in Ha. destruct (apply_op max _ S1) as [S2|] eqn:E2; [|discriminate].
    pose proof (apply_op_sk max _ _ _ (Forall_inv Hus2) E2) as E2'. apply runs_apply in Q2. unfold sk_op in E2'. cbn [op_instr op_id] in E2'. rewrite E2' in Q2. injection Q2 as <-.
    rewrite sk_way in Q4. rewrite sk_at in Q3. destruct (at_path q S1) as [|] eqn:Eq1; [discriminate|]. clear Q3.
    destruct (way_at _ _ _ _ Q4) as (y & Hy & _). unfold apply_op in E2. cbn [op_id op_instr] in E2. destruct (parse_uint max (dec (el_id x))) as [m|] eqn:Em; [|discriminate]. destruct (parse_uint max (dec par)) as [pj|]; [|discriminate].
    pose proof (created_blank m n pj q S1 S2 y E2 Eq1 Hy) as ->.
    destruct Q8 as [[[] _]|(HxM & _ & osA & u & osB & -> & HA & Hu & HB)].
    assert (Forall (fun y => y <= K) (el_id x :: M)) as F by now constructor.
    pose proof (whole_watch max K osA osB u q (el_id x) (blank m n) HA Hu HB eq_refl S2 b' M Ha Q4 Hy F HxM) as Hend.
    pose proof (view_at q _ _ _ _ V Hend Q6) as Vx. apply Q7. unfold blank in Vx. inversion Vx as [? ? ? xa ? ? xs ? ? ? Hxa Hxs]; subst. inversion Hxs; subst. unfold bare. cbn [el_attrs el_listeners el_children el_text]. split; [|auto].
    destruct xa as [|[k0 v0] xa]; [reflexivity|]. specialize (Hxa k0). cbn in Hxa. rewrite str_eqb_refl in Hxa. discriminate.
Qed.
(** Pages that come out right are level. *)
Lemma right_level a b i j j' os b' : numbered i a j -> numbered i b j' -> unkeyed a -> unkeyed b -> proper max a -> proper max b ->
  diff_to b a = Some os -> apply max os a = Some b' -> view b' b -> level [] a b.
Proof.
  intros Na Nb Ua Ub Pa Pb Eos Ha V. destruct (level_cases b [] a) as [H|H]; [|exact H|].
  - apply numbered_range in Na as (_ & -> & _), Nb as (_ & -> & _). lia.
  - exfalso. apply (stuck_never a b i j i j' os b' H); auto. lia.
Qed.
End Run.
