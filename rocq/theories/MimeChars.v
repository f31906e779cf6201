(** puck/src/body/mime.rs as written: on characters, with the iterator that escapes values. A character is its scalar value, a text
    the list of its characters. HttpModel.v models the same on bytes. *)
From Verif Require Import Base Utf8.
Local Open Scope N_scope.

(** mime.rs:112-117 [EscapeMimeValueState]; the struct around it (94-96) has no other field. *)
Inductive esc_state := EscDone | EscChar (c : N) | EscBackslash (c : N).
(** mime.rs:99-109 [backslash], [char]. *)
Definition esc_backslash (c : N) : esc_state := EscBackslash c.
Definition esc_char (c : N) : esc_state := EscChar c.
(** mime.rs:122-134 [next]: what it returns, and the state afterwards. *)
Definition esc_next (s : esc_state) : option N * esc_state :=
  match s with
  | EscDone => (None, EscDone)
  | EscChar c => (Some c, EscDone)
  | EscBackslash c => (Some 92, EscChar c)
  end.
(** mime.rs:136-142 [size_hint]. *)
Definition esc_size_hint (s : esc_state) : N * option N :=
  match s with EscDone => (0, Some 0) | EscChar _ => (1, Some 1) | EscBackslash _ => (2, Some 2) end.
(** Calling [next] until it returns [None] gives these characters. *)
Inductive yields : esc_state -> list N -> Prop :=
| yields_end s s' : esc_next s = (None, s') -> yields s []
| yields_next s c s' l : esc_next s = (Some c, s') -> yields s' l -> yields s (c :: l).
(** mime.rs:83-86, the closure: where the iterator of a character starts. *)
Definition esc_start (c : N) : esc_state := if (c =? 34) || (c =? 92) then esc_backslash c else esc_char c.
(** mime.rs:80-87: [chars().flat_map(..).collect()]. *)
Inductive escapes : list N -> list N -> Prop :=
| escapes_nil : escapes [] []
| escapes_cons c cs l ls : yields (esc_start c) l -> escapes cs ls -> escapes (c :: cs) (l ++ ls).

(** mime.rs:146-166 [is_http_token_code_point]. *)
Definition token_char (c : N) : bool :=
  existsb (N.eqb c) [33; 35; 36; 37; 38; 39; 42; 43; 45; 46; 94; 95; 96; 124; 126]
  || ((97 <=? c) && (c <=? 122)) || ((65 <=? c) && (c <=? 90)) || ((48 <=? c) && (c <=? 57)).

(** mime.rs:76-90: a parameter, and what is written for it. [write!] copies the characters. *)
Definition chars (s : str) : list N := map b2n s.
Inductive param_written (name value : list N) : list N -> Prop :=
| written_bare : forallb token_char value = true -> value <> [] -> param_written name value (chars (bs ";") ++ name ++ chars (bs "=") ++ value)
| written_quoted l : forallb token_char value = false \/ value = [] -> escapes value l ->
    param_written name value (chars (bs ";") ++ name ++ chars (bs "=""") ++ l ++ chars (bs """")).
(** mime.rs:71-92 [format]. *)
Inductive params_written : list (list N * list N) -> list N -> Prop :=
| params_nil : params_written [] []
| params_cons n v ps l ls : param_written n v l -> params_written ps ls -> params_written ((n, v) :: ps) (l ++ ls).
Definition mime_written (essence : list N) (utf8 : bool) (ps : list (list N * list N)) (out : list N) : Prop :=
  exists l, params_written ps l /\ out = essence ++ (if utf8 then chars (bs ";charset=utf-8") else []) ++ l.

(** The bytes of a text. *)
Definition encode (cs : list N) : str := concat (map utf8_encode cs).
