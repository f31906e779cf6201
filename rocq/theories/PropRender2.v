(** Server-side rendering, exactly: C64. *)
From Verif Require Import Base HMap DomModel DomSpec DomProofs RenderModel RenderSpec PropRender.
From Coq Require Import Lia.

Lemma harmless_nil : harmless [].
Proof. split; [intros [|x a] b H; discriminate|intros [|x a] c b H; discriminate]. Qed.
Lemma harmless_cons c s : harmless (c :: s) <-> is c (bs "&") = false /\ harmless s /\
  (is c (bs "<") = true -> match s with [] => True | d :: _ => letter d = false /\ is d (bs "/") = false /\ is d (bs "!") = false /\ is d (bs "?") = false end).
Proof.
  split.
  - intros [H1 H2]. split; [|split; [split|]].
    + destruct (is c (bs "&")) eqn:E; [|reflexivity]. apply byte_eqb_eq in E. subst c. exfalso. now apply (H1 [] s).
    + intros a b ->. now apply (H1 (c :: a) b).
    + intros a d b ->. now apply (H2 (c :: a) d b).
    + intros E. apply byte_eqb_eq in E. subst c. destruct s as [|d s]; [exact I|]. now apply (H2 [] d s).
  - intros (Ec & (H1 & H2) & H3). split.
    + intros [|x a] b [= -> Hs]; [discriminate|]. now apply (H1 a b).
    + intros [|x a] d b [= -> Hs]; [subst s; now apply H3|]. now apply (H2 a d b).
Qed.

(** The number of characters in front of the first tag. *)
Fixpoint lead (ts : list token) : nat := match ts with TChar _ :: ts' => S (lead ts') | _ => 0 end.
Lemma lead_app a b : (exists l, a = map TChar l) -> lead (a ++ b) = length a + lead b.
Proof. intros (l & ->). induction l as [|c l IH]; [reflexivity|]. cbn [map app lead length]. now rewrite IH. Qed.

Definition in_tag (st : tstate) : Prop := match st with Data | TagOpen | EndTagOpen => False | _ => True end.
(** The tag of such a state. *)
Definition tag_of (st : tstate) : option tag :=
  match st with
  | TagName t | BeforeAttrName t | AttrName t _ | AfterAttrName t _ | BeforeValue t _ | ValueDouble t _ _ | ValueSingle t _ _
  | ValueUnquoted t _ _ | AfterValue t | SelfClosing t => Some t
  | _ => None
  end.
Definition grown (t t' : tag) : Prop := t_end t' = t_end t /\ exists more, t_attrs t' = t_attrs t ++ more.
Lemma grown_refl t : grown t t.
Proof. split; [reflexivity|]. exists []. now rewrite app_nil_r. Qed.
Lemma grown_attr t n v : grown t (with_attr t n v).
Proof. split; [reflexivity|]. now exists [(n, v)]. Qed.
Lemma grown_trans a b c : grown a b -> grown b c -> grown a c.
Proof. intros (E1 & m1 & H1) (E2 & m2 & H2). split; [congruence|]. exists (m1 ++ m2). now rewrite H2, H1, app_assoc. Qed.
Lemma tag_step st c t : tag_of st = Some t ->
  (exists t', fst (step st c) = Data /\ grown t t' /\ exists sc, snd (step st c) = emit t' sc) \/
  (snd (step st c) = [] /\ (fst (step st c) = Unsupported \/ exists t', tag_of (fst (step st c)) = Some t' /\ grown t t')).
Proof.
  assert (forall t0, (exists t', fst (before_attr_name t0 c) = Data /\ grown t0 t' /\ exists sc, snd (before_attr_name t0 c) = emit t' sc) \/
    (snd (before_attr_name t0 c) = [] /\ (fst (before_attr_name t0 c) = Unsupported \/ exists t', tag_of (fst (before_attr_name t0 c)) = Some t' /\ grown t0 t'))) as B.
  { intros t0. unfold before_attr_name. destruct (space c); [right; split; [reflexivity|]; right; exists t0; split; [reflexivity|apply grown_refl]|].
    destruct (is c (bs "/")); [right; split; [reflexivity|]; right; exists t0; split; [reflexivity|apply grown_refl]|].
    destruct (is c (bs ">")); [left; exists t0; split; [reflexivity|]; split; [apply grown_refl|now exists false]|].
    right; split; [reflexivity|]; right; exists t0; split; [reflexivity|apply grown_refl]. }
  destruct st as [| | |t0|t0|t0 n|t0 n|t0 n|t0 n v|t0 n v|t0 n v|t0|t0|]; cbn [tag_of]; intros H; try discriminate H; injection H as ->; cbn [step];
    try apply B;
    repeat match goal with |- context [if ?b then _ else _] => destruct b end;
    first [ apply B
          | left; eexists; split; [reflexivity|]; split; [|eexists; cbn [snd]; reflexivity]; first [apply grown_attr|apply grown_refl]
          | right; split; [reflexivity|]; left; reflexivity
          | right; split; [reflexivity|]; right; eexists; split; [reflexivity|]; first [apply grown_attr|apply grown_refl|(split; [reflexivity|exists []; now rewrite app_nil_r])] ].
Qed.
Lemma unsupported_none s : tokens Unsupported s = (Unsupported, []).
Proof. induction s as [|c s IH]; [reflexivity|]. cbn [tokens step]. now rewrite IH. Qed.
(** From inside a tag, the first token is that tag, with more attributes perhaps. *)
Lemma tag_first s : forall st t, tag_of st = Some t -> match snd (tokens st s) with
  | [] => True
  | TStart _ a _ :: _ => t_end t = false /\ exists more, a = t_attrs t ++ more
  | TEnd _ :: _ => t_end t = true
  | TChar _ :: _ => False
  end.
Proof.
  induction s as [|c s IH]; intros st t H; [exact I|]. cbn [tokens]. destruct (step st c) as [s1 o1] eqn:E. pose proof (tag_step st c t H) as K. rewrite E in K. cbn [fst snd] in K.
  destruct K as [(t' & -> & (G1 & more & G2) & sc & ->)|(-> & [->|(t' & H' & G)])].
  - destruct (tokens Data s) as [s2 o2]. cbn [snd]. unfold emit. rewrite G1. destruct (t_end t) eqn:Et; cbn [app]; [reflexivity|]. split; [reflexivity|]. eauto.
  - rewrite unsupported_none. exact I.
  - specialize (IH _ _ H'). destruct (tokens s1 s) as [s2 o2]. cbn [snd app] in *. destruct o2 as [|[n a sc|n|b] o2]; [exact I| | |exact IH].
    + destruct IH as (E1 & more & ->). destruct G as (G1 & m1 & ->). split; [congruence|]. exists (m1 ++ more). now rewrite app_assoc.
    + destruct G as (G1 & _). congruence.
Qed.
Lemma tag_lead s st t : tag_of st = Some t -> lead (snd (tokens st s)) = 0.
Proof. intros H. pose proof (tag_first s st t H) as K. destruct (snd (tokens st s)) as [|[| |] ?]; [reflexivity..|contradiction]. Qed.

(** Reading text in front of a tag: at most as many characters as it has, and as many only if it is harmless. *)
Definition tag_follows (r : str) : Prop := exists c r', (r = bs "<" ++ c :: r' /\ letter c = true) \/ (r = bs "</" ++ c :: r' /\ letter c = true).
Lemma letter_not c : letter c = true -> is c (bs "/") = false /\ is c (bs "!") = false /\ is c (bs "?") = false /\ is c (bs "&") = false /\ is c (bs "<") = false.
Proof.
  intros H. repeat split; destruct (is c _) eqn:E; try reflexivity; cbn in E; apply byte_eqb_eq in E; subst c; discriminate.
Qed.
Lemma follows_open r : tag_follows r -> exists r', r = x3c :: r' /\ lead (snd (tokens TagOpen r')) = 0.
Proof.
  intros (c & r' & [(-> & Hc)|(-> & Hc)]).
  - exists (c :: r'). split; [reflexivity|]. cbn [tokens step]. destruct (letter_not c Hc) as (-> & _). rewrite Hc.
    pose proof (tag_lead r' (TagName (Tag false (lower1 c) [])) _ eq_refl) as K. now destruct (tokens _ r').
  - exists (x2f :: c :: r'). split; [reflexivity|]. cbn [tokens]. change (step TagOpen x2f) with (EndTagOpen, @nil token). cbv iota. cbn [step]. rewrite Hc.
    pose proof (tag_lead r' (TagName (Tag true (lower1 c) [])) _ eq_refl) as K. now destruct (tokens _ r').
Qed.
Lemma lead_text r : tag_follows r -> forall t,
  (lead (snd (tokens Data (t ++ r))) <= length t /\ (length t <= lead (snd (tokens Data (t ++ r))) -> harmless t)) /\
  (lead (snd (tokens TagOpen (t ++ r))) <= S (length t) /\ (S (length t) <= lead (snd (tokens TagOpen (t ++ r))) -> harmless t /\ match t with [] => True | d :: _ => letter d = false /\ is d (bs "/") = false /\ is d (bs "!") = false /\ is d (bs "?") = false end)) /\
  lead (snd (tokens EndTagOpen (t ++ r))) <= length t.
Proof.
  intros Hr. destruct (follows_open r Hr) as (r0 & -> & Hr0).
  induction t as [|c t IH].
  - cbn [app]. cbn [tokens]. change (step Data x3c) with (TagOpen, @nil token). change (step TagOpen x3c) with (TagOpen, [TChar x3c]). change (step EndTagOpen x3c) with (Unsupported, @nil token). cbv iota.
    rewrite unsupported_none. destruct (tokens TagOpen r0) as [s o]. cbn [snd app length lead] in *. pose proof harmless_nil as N.
    split; [split; [lia|intros _; exact N]|]. split; [split; [lia|intros _; split; [exact N|exact I]]|lia].
  - destruct IH as ((D1 & D2) & (T1 & T2) & E1). cbn [app tokens length]. split; [|split].
    + cbn [step]. destruct (is c (bs "<")) eqn:Elt.
      * destruct (tokens TagOpen (t ++ x3c :: r0)) as [s o] eqn:Et. cbn [snd app] in *. split; [exact T1|]. intros H. destruct (T2 H) as (H1 & H2). apply harmless_cons.
        apply byte_eqb_eq in Elt. subst c. split; [reflexivity|]. split; [exact H1|]. intros _. exact H2.
      * destruct (is c (bs "&")) eqn:Eamp.
        -- rewrite unsupported_none. cbn [snd app lead]. split; [lia|]. intros H. lia.
        -- destruct (tokens Data (t ++ x3c :: r0)) as [s o] eqn:Et. cbn [snd app lead] in *. split; [lia|]. intros H. apply harmless_cons. split; [exact Eamp|]. split; [apply D2; lia|]. congruence.
    + cbn [step]. destruct (is c (bs "/")) eqn:Esl.
      { destruct (tokens EndTagOpen (t ++ x3c :: r0)) as [s o]. cbn [snd app] in *. split; [lia|]. intros H. lia. }
      destruct (letter c) eqn:El.
      { pose proof (tag_lead (t ++ x3c :: r0) (TagName (Tag false (lower1 c) [])) _ eq_refl) as K. destruct (tokens (TagName _) (t ++ x3c :: r0)) as [s o]. cbn [snd app] in *. split; [lia|]. intros H. lia. }
      destruct (is c (bs "!")) eqn:E2; [cbn [orb]; rewrite unsupported_none; cbn [snd app lead]; split; [lia|intros H; lia]|].
      destruct (is c (bs "?")) eqn:E3; [cbn [orb]; rewrite unsupported_none; cbn [snd app lead]; split; [lia|intros H; lia]|].
      destruct (is c (bs "&")) eqn:E4; [cbn [orb]; rewrite unsupported_none; cbn [snd app lead]; split; [lia|intros H; lia]|]. cbn [orb].
      destruct (is c (bs "<")) eqn:Elt.
      * destruct (tokens TagOpen (t ++ x3c :: r0)) as [s o] eqn:Et. cbn [snd app lead] in *. split; [lia|]. intros H. destruct T2 as (H1 & H2); [lia|]. split; [|repeat split; assumption].
        apply harmless_cons. split; [exact E4|]. split; [exact H1|]. intros _. exact H2.
      * destruct (tokens Data (t ++ x3c :: r0)) as [s o] eqn:Et. cbn [snd app lead map bs] in *. split; [change (lead ([TChar x3c] ++ [TChar c] ++ o) <= S (S (length t))); cbn [app lead]; lia|].
        intros H. change (S (S (length t)) <= S (S (lead o))) in H. split; [|repeat split; assumption]. apply harmless_cons. split; [exact E4|]. split; [apply D2; lia|]. congruence.
    + cbn [step]. destruct (letter c) eqn:El.
      { pose proof (tag_lead (t ++ x3c :: r0) (TagName (Tag true (lower1 c) [])) _ eq_refl) as K. destruct (tokens (TagName _) (t ++ x3c :: r0)) as [s o]. cbn [snd app] in *. lia. }
      destruct (is c (bs ">")).
      * destruct (tokens Data (t ++ x3c :: r0)) as [s o]. cbn [snd app] in *. lia.
      * rewrite unsupported_none. cbn. lia.
Qed.

(** Between tags, possibly with a "<" that turned out to be text. *)
Definition ready (st : tstate) (pend : list token) : Prop := (st = Data /\ pend = []) \/ (st = TagOpen /\ pend = [TChar x3c]).
Lemma ready_lt st pend r : ready st pend -> tokens st (x3c :: r) = let '(s, o) := tokens TagOpen r in (s, pend ++ o).
Proof. intros [(-> & ->)|(-> & ->)]; cbn [tokens]; [change (step Data x3c) with (TagOpen, @nil token)|change (step TagOpen x3c) with (TagOpen, [TChar x3c])]; cbv iota; now destruct (tokens TagOpen r). Qed.
Lemma harmless_read t : harmless t ->
  (exists st pend o, ready st pend /\ tokens Data t = (st, o) /\ o ++ pend = map TChar t) /\
  (match t with [] => True | d :: _ => letter d = false /\ is d (bs "/") = false /\ is d (bs "!") = false /\ is d (bs "?") = false end ->
   exists st pend o, ready st pend /\ tokens TagOpen t = (st, o) /\ o ++ pend = TChar x3c :: map TChar t).
Proof.
  induction t as [|c t IH]; intros H.
  - split; [exists Data, [], []; split; [now left|now split]|]. intros _. exists TagOpen, [TChar x3c], []. split; [now right|now split].
  - apply harmless_cons in H as (Ea & H & Hlt). destruct (IH H) as ((s1 & p1 & o1 & R1 & E1 & Q1) & IH2). split.
    + cbn [tokens step]. destruct (is c (bs "<")) eqn:El.
      * destruct (IH2 (Hlt eq_refl)) as (s2 & p2 & o2 & R2 & E2 & Q2). rewrite E2. exists s2, p2, o2. apply byte_eqb_eq in El. subst c. repeat split; assumption.
      * rewrite Ea, E1. exists s1, p1, (TChar c :: o1). split; [exact R1|]. split; [reflexivity|]. cbn [app map]. now rewrite Q1.
    + intros (N1 & N2 & N3 & N4). cbn [tokens step]. rewrite N1, N2, N3, N4, Ea. cbn [orb]. destruct (is c (bs "<")) eqn:El.
      * destruct (IH2 (Hlt eq_refl)) as (s2 & p2 & o2 & R2 & E2 & Q2). rewrite E2. exists s2, p2, (TChar c :: o2). split; [exact R2|]. split; [reflexivity|]. cbn [app map]. rewrite Q2.
        apply byte_eqb_eq in El. now subst c.
      * rewrite E1. exists s1, p1, (TChar x3c :: TChar c :: o1). split; [exact R1|]. split; [reflexivity|]. cbn [app map]. now rewrite Q1.
Qed.

(** Attributes are not read back. *)
Definition ends_key (c : byte) : bool := space c || is c (bs "/") || is c (bs ">") || is c (bs "=").
Fixpoint key_part (s : str) : str := match s with [] => [] | c :: s' => if ends_key c then [] else lower c :: key_part s' end.
Lemma lower_ends c : ends_key c = false -> ends_key (lower c) = false.
Proof. pose proof (byte_sweep (fun c => implb (negb (ends_key c)) (negb (ends_key (lower c)))) eq_refl c) as H. cbv beta in H. destruct (ends_key c), (ends_key (lower c)); try discriminate; auto. Qed.
Definition first_key (k : str) (o : list token) : Prop :=
  match o with [] => True | TStart _ ((k', _) :: _) _ :: _ => k' = k | _ => False end.
Lemma first_emit t n v sc s : t_end t = false -> t_attrs t = [] -> first_key n (emit (with_attr t n v) sc ++ s).
Proof. intros H1 H2. unfold emit, with_attr. cbn [t_end t_name t_attrs]. rewrite H1, H2. reflexivity. Qed.
Lemma first_tag st t n v s : tag_of st = Some (with_attr t n v) -> t_end t = false -> t_attrs t = [] -> first_key n (snd (tokens st s)).
Proof.
  intros H H1 H2. pose proof (tag_first s st _ H) as K. unfold with_attr in K. cbn [t_end t_attrs] in K. rewrite H1, H2 in K. destruct (snd (tokens st s)) as [|[m a sc|m|c] o]; [exact I| |discriminate|contradiction].
  destruct K as (_ & more & ->). reflexivity.
Qed.
Definition naming (st : tstate) (t : tag) (n : str) : Prop :=
  st = AfterAttrName t n \/ st = BeforeValue t n \/ (exists v, st = ValueDouble t n v) \/ (exists v, st = ValueSingle t n v) \/ (exists v, st = ValueUnquoted t n v).
Lemma naming_first t n : t_end t = false -> t_attrs t = [] -> forall s st, naming st t n -> first_key n (snd (tokens st s)).
Proof.
  intros H1 H2. induction s as [|c s IH]; intros st Hst; [exact I|].
  assert (forall st1, naming st1 t n -> first_key n (snd (let '(st2, o2) := tokens st1 s in (st2, [] ++ o2)))) as A by (intros st1 N; specialize (IH st1 N); now destruct (tokens st1 s)).
  assert (forall st1 v, tag_of st1 = Some (with_attr t n v) -> first_key n (snd (let '(st2, o2) := tokens st1 s in (st2, [] ++ o2)))) as B.
  { intros st1 v N. pose proof (first_tag st1 t n v s N H1 H2) as K. now destruct (tokens st1 s). }
  assert (forall v sc, first_key n (snd (let '(st2, o2) := tokens Data s in (st2, emit (with_attr t n v) sc ++ o2)))) as C.
  { intros v sc. destruct (tokens Data s) as [s2 o2]. now apply first_emit. }
  assert (first_key n (snd (let '(st2, o2) := tokens Unsupported s in (st2, [] ++ o2)))) as U by (rewrite unsupported_none; exact I).
  cbn [tokens]. destruct Hst as [->|[->|[(v & ->)|[(v & ->)|(v & ->)]]]]; cbn [step];
    repeat match goal with |- context [if ?b then _ else _] => destruct b end;
    first [exact U | solve [apply C] | solve [apply A; unfold naming; eauto 9] | eapply B; reflexivity].
Qed.
Lemma key_first t : t_end t = false -> t_attrs t = [] -> forall s n, first_key (n ++ key_part s) (snd (tokens (AttrName t n) s)).
Proof.
  intros H1 H2. induction s as [|c s IH]; intros n; [exact I|]. cbn [tokens step key_part]. unfold ends_key. destruct (space c).
  - cbn [orb]. rewrite app_nil_r. pose proof (naming_first t n H1 H2 s (AfterAttrName t n) (or_introl eq_refl)) as K. now destruct (tokens _ s).
  - destruct (is c (bs "/")).
    + cbn [orb]. rewrite app_nil_r. pose proof (first_tag (SelfClosing (with_attr t n [])) t n [] s eq_refl H1 H2) as K. now destruct (tokens _ s).
    + destruct (is c (bs ">")).
      * cbn [orb]. rewrite app_nil_r. destruct (tokens Data s) as [s2 o2]. now apply first_emit.
      * destruct (is c (bs "=")).
        -- cbn [orb]. rewrite app_nil_r. pose proof (naming_first t n H1 H2 s (BeforeValue t n) (or_intror (or_introl eq_refl))) as K. now destruct (tokens _ s).
        -- cbn [orb]. specialize (IH (n ++ lower1 c)). unfold lower1 in *. cbn [to_lower map] in *. rewrite <- app_assoc in IH. cbn [app] in IH. now destruct (tokens _ s).
Qed.
Lemma key_part_plain s : Forall (fun c => ends_key c = false) (key_part s).
Proof. induction s as [|c s IH]; [constructor|]. cbn [key_part]. destruct (ends_key c) eqn:E; [constructor|]. constructor; [now apply lower_ends|exact IH]. Qed.
Lemma key_part_long k r : Forall (fun c => ends_key c = false) k -> length k + length (key_part r) = length (key_part (k ++ r)).
Proof. induction 1 as [|c k Hc Hk IH]; [reflexivity|]. cbn [app key_part length]. rewrite Hc. cbn [length]. lia. Qed.
(** No key is read as it was written. *)
Lemma key_differs k r : x22 :: key_part (k ++ x22 :: r) <> k.
Proof.
  intros E. assert (Forall (fun c => ends_key c = false) k) as F by (rewrite <- E; constructor; [reflexivity|apply key_part_plain]).
  apply (f_equal (@length byte)) in E. cbn [length] in E. rewrite <- (key_part_long _ _ F) in E. cbn [key_part ends_key] in E. cbn in E. lia.
Qed.


Lemma name_read n : tag_name n -> forall (b : bool) r, tokens (if b then EndTagOpen else TagOpen) (n ++ r) = tokens (TagName (Tag b n [])) r.
Proof.
  intros (Hl & c & s & -> & Hc & Hs) b r. pose proof (lower1_fix _ _ Hl) as [L1 L2]. rewrite <- app_comm_cons. cbn [tokens].
  assert (step (if b then EndTagOpen else TagOpen) c = (TagName (Tag b [c] []), [])) as ->.
  { destruct (letter_not c Hc) as (E & _). destruct b; cbn [step]; [rewrite Hc|rewrite E, Hc]; now rewrite L1. }
  rewrite tokens_app, (name_rest s L2 Hs). cbn [app]. destruct (tokens _ r). reflexivity.
Qed.
Lemma open_read n : tag_name n -> forall r, tokens TagOpen (n ++ bs " " ++ bs " " ++ bs ">" ++ r) = let '(s, o) := tokens Data r in (s, TStart n [] false :: o).
Proof.
  intros Hn r. rewrite (name_read n Hn false). change (bs " " ++ bs " " ++ bs ">" ++ r) with ([x20; x20; x3e] ++ r). rewrite tokens_app. cbn [tokens].
  change (tokens (TagName (Tag false n [])) [x20; x20; x3e]) with (Data, [TStart n [] false]). cbv iota. reflexivity.
Qed.
Lemma close_read n st pend r : tag_name n -> ready st pend -> tokens st (bs "</" ++ n ++ bs ">" ++ r) = let '(s, o) := tokens Data r in (s, pend ++ TEnd n :: o).
Proof.
  intros Hn Hr. change (bs "</" ++ n ++ bs ">" ++ r) with (x3c :: x2f :: n ++ [x3e] ++ r). rewrite (ready_lt _ _ _ Hr). cbn [tokens]. change (step TagOpen x2f) with (EndTagOpen, @nil token). cbv iota.
  rewrite (name_read n Hn true), tokens_app. change (tokens (TagName (Tag true n [])) [x3e]) with (Data, [TEnd n]). cbv iota.
  destruct (tokens Data r). reflexivity.
Qed.
(** The text, the children and the end tag of an element. *)
Definition inside (e : element) : str := match el_text e with Some t => t | None => [] end ++ flat_map render (el_children e) ++ write_closing_tag e.
Lemma render_open e r : render e ++ r = bs "<" ++ el_name e ++ bs " " ++ write_attributes (el_attrs e) ++ bs " " ++ bs ">" ++ inside e ++ r.
Proof. destruct e as [i n a l cs t k]. unfold inside. cbn [render el_text el_children]. unfold write_opening_tag. cbn [el_name el_attrs]. now rewrite <- !app_assoc. Qed.
Lemma tail_follows cs n r : Forall named cs -> tag_name n -> tag_follows (flat_map render cs ++ bs "</" ++ n ++ bs ">" ++ r).
Proof.
  intros Hc Hn. destruct cs as [|e cs].
  - destruct Hn as (_ & c & s & -> & Hc1 & _). exists c, (s ++ bs ">" ++ r). right. split; [reflexivity|exact Hc1].
  - inversion Hc as [|? ? He _]; subst. pose proof (every_root _ _ He) as (_ & c & s & En & Hc1 & _). cbn [flat_map]. rewrite <- app_assoc, render_open, En. 
    eexists c, _. left. split; [reflexivity|exact Hc1].
Qed.

(** A page without attributes and with harmless text is read back. *)
Lemma bare_read e : named e -> bare e -> forall st pend r, ready st pend -> tokens st (render e ++ r) = let '(s, o) := tokens Data r in (s, pend ++ says_page e ++ o).
Proof.
  induction e as [i n a l cs t k IH] using element_ind2. intros Hn Hb st pend r Hr. pose proof (every_root _ _ Hn) as Hn0. pose proof (every_children _ _ Hn) as Hnc.
  pose proof (every_root _ _ Hb) as [Ha Ht]. pose proof (every_children _ _ Hb) as Hbc. cbn [el_name el_attrs el_text el_children] in *. subst a.
  assert (forall st pend r, ready st pend -> tokens st (flat_map render cs ++ bs "</" ++ n ++ bs ">" ++ r) = let '(s, o) := tokens Data r in (s, pend ++ flat_map says_page cs ++ TEnd n :: o)) as Kids.
  { clear -IH Hn0 Hnc Hbc. induction IH as [|e cs He _ IHcs]; intros st pend r Hr.
    - cbn [flat_map app]. now apply close_read.
    - inversion Hnc; subst. inversion Hbc; subst. cbn [flat_map]. rewrite <- app_assoc. rewrite (He ltac:(assumption) ltac:(assumption) st pend _ Hr). rewrite (IHcs ltac:(assumption) ltac:(assumption) Data [] r (or_introl (conj eq_refl eq_refl))).
      destruct (tokens Data r). cbn [app]. now rewrite <- !app_assoc. }
  rewrite render_open. cbn [el_name el_attrs write_attributes flat_map]. rewrite app_nil_l. change (bs "<" ++ ?x) with (x3c :: x). rewrite (ready_lt _ _ _ Hr), (open_read n Hn0).
  unfold inside, write_closing_tag. cbn [el_text el_children el_name]. rewrite <- !app_assoc. cbn [says_page].
  destruct t as [t|].
  - destruct (harmless_read t Ht) as ((s1 & p1 & o1 & R1 & E1 & Q1) & _). rewrite (tokens_app Data t), E1, (Kids _ _ _ R1). destruct (tokens Data r). cbn [app].
    rewrite <- Q1, <- !app_assoc. reflexivity.
  - cbn [app]. rewrite (Kids Data [] r (or_introl (conj eq_refl eq_refl))). destruct (tokens Data r). cbn [app map]. rewrite <- !app_assoc. reflexivity.
Qed.
(** And no other. *)
Lemma read_bare e : named e -> forall st pend r s o, ready st pend -> tokens st (render e ++ r) = (s, pend ++ says_page e ++ o) -> bare e /\ tokens Data r = (s, o).
Proof.
  induction e as [i n a l cs t k IH] using element_ind2. intros Hn st pend r s o Hr H. pose proof (every_root _ _ Hn) as Hn0. pose proof (every_children _ _ Hn) as Hnc. cbn [el_name el_children] in *.
  rewrite render_open in H. cbn [el_name el_attrs] in H. change (bs "<" ++ ?x) with (x3c :: x) in H. rewrite (ready_lt _ _ _ Hr) in H.
  destruct a as [|[ka va] a].
  2: { exfalso. cbn [says_page] in H. rewrite (name_read n Hn0 false) in H. unfold write_attributes in H. cbn [flat_map fst snd] in H. change (bs " " ++ ?x) with (x20 :: x) in H.
       rewrite <- !app_assoc in H. change ([dquote] ++ ?x) with (x22 :: x) in H. cbn [tokens] in H.
       change (step (TagName (Tag false n [])) x20) with (BeforeAttrName (Tag false n []), @nil token) in H. cbv iota in H.
       change (step (BeforeAttrName (Tag false n [])) x22) with (AttrName (Tag false n []) [x22], @nil token) in H. cbv iota in H. cbn [app] in H.
       change (bs """=" ++ ?x) with (x22 :: x3d :: x) in H.
       match type of H with context [tokens (AttrName _ _) (ka ++ x22 :: ?x)] => pose proof (key_first (Tag false n []) eq_refl eq_refl (ka ++ x22 :: x) [x22]) as K; pose proof (key_differs ka x) as D end.
       destruct (tokens (AttrName (Tag false n []) [x22]) _) as [s2 o2]. cbn [snd app] in *. injection H as _ H. apply app_inv_head in H. subst o2. cbn [first_key] in K. congruence. }
  cbn [write_attributes flat_map] in H. rewrite app_nil_l, (open_read n Hn0) in H. cbn [says_page] in H.
  unfold inside, write_closing_tag in H. cbn [el_text el_children el_name] in H. rewrite <- !app_assoc in H.
  assert (forall st pend s o, ready st pend -> tokens st (flat_map render cs ++ bs "</" ++ n ++ bs ">" ++ r) = (s, pend ++ flat_map says_page cs ++ TEnd n :: o) -> Forall bare cs /\ tokens Data r = (s, o)) as Kids.
  { clear -IH Hn0 Hnc. induction IH as [|e cs He _ IHcs]; intros st pend s o Hr H.
    - cbn [flat_map app] in H. rewrite (close_read n st pend r Hn0 Hr) in H. destruct (tokens Data r) as [s1 o1]. injection H as -> H. apply app_inv_head in H. injection H as ->. split; [constructor|reflexivity].
    - inversion Hnc; subst. cbn [flat_map] in H. rewrite <- !app_assoc in H. apply He in H as [Q1 Q2]; [|assumption|exact Hr]. apply (IHcs ltac:(assumption) Data []) in Q2 as [Q3 Q4]; [|now left]. split; [now constructor|exact Q4]. }
  assert (exists tx, tx = match t with Some v => v | None => [] end) as (tx & Etx) by eauto.
  replace (match t return list byte with Some v => v | None => [] end) with tx in H by exact Etx. replace (map TChar match t with Some v => v | None => [] end) with (map TChar tx) in H by now rewrite Etx.
  destruct (tokens Data (tx ++ flat_map render cs ++ bs "</" ++ n ++ bs ">" ++ r)) as [s1 o1] eqn:E1.
  injection H as -> H. apply app_inv_head in H. cbn [app] in H. injection H as H. rewrite <- !app_assoc in H. cbn [app] in H.
  assert (harmless tx) as Ht.
  { destruct (lead_text _ (tail_follows cs n r Hnc Hn0) tx) as ((_ & L) & _). rewrite E1 in L. cbn [snd] in L. apply L. rewrite H. rewrite lead_app by eauto. rewrite map_length. lia. }
  destruct (harmless_read tx Ht) as ((s2 & p2 & o2 & R2 & E2 & Q2) & _). rewrite tokens_app, E2 in E1.
  destruct (tokens s2 (flat_map render cs ++ bs "</" ++ n ++ bs ">" ++ r)) as [s3 o3] eqn:E3. injection E1 as -> E1. rewrite H, <- Q2, <- app_assoc in E1. apply app_inv_head in E1. subst o3.
  destruct (Kids _ _ _ _ R2 E3) as [K1 K2]. split; [|exact K2]. constructor; [|exact K1]. cbn [el_attrs el_text]. split; [reflexivity|]. rewrite Etx in Ht. destruct t; [exact Ht|exact I].
Qed.

(** ** C64, exactly: a page with proper tag names is read back as it is if and only if it has no attributes anywhere
    and no text that looks like markup. *)
Theorem C64_exactly : forall e, named e -> (tokenize (render e) = Some (says_page e) <-> bare e).
Proof.
  intros e Hn. unfold tokenize. split.
  - intros H. destruct (tokens Data (render e)) as [s o] eqn:E. destruct s; try discriminate H. injection H as ->.
    destruct (read_bare e Hn Data [] [] Data []) as [H _]; [now left| |exact H]. now rewrite !app_nil_r.
  - intros Hb. pose proof (bare_read e Hn Hb Data [] [] (or_introl (conj eq_refl eq_refl))) as H. rewrite !app_nil_r in H. cbn [tokens] in H. rewrite H. cbn [app]. now rewrite app_nil_r.
Qed.
Print Assumptions C64_exactly.
(** Both cases occur: "a < b" is read back, "a <b" is not. *)
Example C64_exactly_example : let page t := Element 0 (bs "div") [] [] [Element 1 (bs "p") [] [] [] (Some t) None] None None in
  named (page (bs "a < b")) /\ tokenize (render (page (bs "a < b"))) = Some (says_page (page (bs "a < b"))) /\
  named (page (bs "a <b")) /\ ~ bare (page (bs "a <b")).
Proof.
  cbv zeta. assert (forall t, named (Element 0 (bs "div") [] [] [Element 1 (bs "p") [] [] [] (Some t) None] None None)) as N.
  { intros t. constructor; [|constructor; [constructor; [|constructor]|constructor]]; (split; [reflexivity|]; eexists _, _; split; [reflexivity|]; split; [reflexivity|]; repeat constructor). }
  split; [apply N|]. split; [vm_compute; reflexivity|]. split; [apply N|]. intros H. apply C64_exactly in H; [|apply N]. vm_compute in H. discriminate.
Qed.
