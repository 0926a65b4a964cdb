(** Parsers with effects.  The user closures of the parser configuration are
    [FnMut]: each call may read and change a state the user owns.  Here a
    parser also transforms such a state [W]; the state is threaded through
    every call in the order in which the Rust code makes them, and is NOT
    rolled back when an alternative fails.  The combinators are those of
    [Nom.v] with the state added. *)
From Coq Require Import String.
From Verif Require Export Nom.
Import ListNotations.
Open Scope list_scope.

Definition eparser (W A : Type) := str -> W -> res A * W.
(** a parser that calls no user code *)
Definition lift {W A} (p : parser A) : eparser W A := fun s w => (p s, w).
Definition eret {W A} (a : A) : eparser W A := lift (ret a).
Definition efail {W A} : eparser W A := lift fail.
Definition ebind {W A B} (p : eparser W A) (f : A -> eparser W B) : eparser W B :=
  fun s w => match p s w with (Ok r a, w') => f a r w' | (Err, w') => (Err, w') | (Oof, w') => (Oof, w') end.
Notation "x <~ p ;; q" := (ebind p (fun x => q)) (at level 61, p at next level, right associativity).
Notation "' pat <~ p ;; q" := (ebind p (fun x => match x with pat => q end))
  (at level 61, pat pattern, p at next level, right associativity).
Definition emap {W A B} (f : A -> B) (p : eparser W A) : eparser W B := ebind p (fun a => eret (f a)).
Definition evalue {W A B} (v : B) (p : eparser W A) : eparser W B := emap (fun _ => v) p.
(** a user closure run on the value parsed *)
Definition erun {W A B} (f : A -> W -> B * W) (p : eparser W A) : eparser W B :=
  ebind p (fun a s w => let (b, w') := f a w in (Ok s b, w')).
Definition eopt {W A} (p : eparser W A) : eparser W (option A) :=
  fun s w => match p s w with (Ok r a, w') => (Ok r (Some a), w') | (Err, w') => (Ok s None, w') | (Oof, w') => (Oof, w') end.
Definition enot {W A} (p : eparser W A) : eparser W unit :=
  fun s w => match p s w with (Ok _ _, w') => (Err, w') | (Err, w') => (Ok s tt, w') | (Oof, w') => (Oof, w') end.
Definition epeek {W A} (p : eparser W A) : eparser W A :=
  fun s w => match p s w with (Ok _ a, w') => (Ok s a, w') | (Err, w') => (Err, w') | (Oof, w') => (Oof, w') end.
Definition erecognize {W A} (p : eparser W A) : eparser W str :=
  fun s w => match p s w with
             | (Ok r _, w') => (Ok r (firstn (List.length s - List.length r) s), w')
             | (Err, w') => (Err, w') | (Oof, w') => (Oof, w') end.
Definition epreceded {W A B} (p : eparser W A) (q : eparser W B) : eparser W B := ebind p (fun _ => q).
Definition eterminated {W A B} (p : eparser W A) (q : eparser W B) : eparser W A := ebind p (fun a => evalue a q).
Definition edelimited {W A B C} (p : eparser W A) (q : eparser W B) (t : eparser W C) : eparser W B :=
  epreceded p (eterminated q t).
Definition eor_else {W A} (p q : eparser W A) : eparser W A :=
  fun s w => match p s w with (Err, w') => q s w' | r => r end.
Fixpoint ealt {W A} (l : list (eparser W A)) : eparser W A :=
  match l with
  | [] => efail
  | [p] => p
  | p :: l' => eor_else p (ealt l')
  end.
Fixpoint emany0_go {W A} (fuel : nat) (p : eparser W A) (s : str) (w : W) : res (list A) * W :=
  match fuel with
  | O => (Oof, w)
  | S f =>
      match p s w with
      | (Oof, w') => (Oof, w')
      | (Err, w') => (Ok s [], w')
      | (Ok r a, w') =>
          if (List.length r =? List.length s) then (Err, w')
          else match emany0_go f p r w' with (Ok r' l, w'') => (Ok r' (a :: l), w'') | e => e end
      end
  end.
Definition emany0 {W A} (p : eparser W A) : eparser W (list A) := fun s w => emany0_go (S (List.length s)) p s w.
Definition emany1 {W A} (p : eparser W A) : eparser W (list A) := ebind p (fun a => emap (cons a) (emany0 p)).
Fixpoint esep_go {W A B} (fuel : nat) (sep : eparser W B) (p : eparser W A) (s : str) (w : W) : res (list A) * W :=
  match fuel with
  | O => (Oof, w)
  | S f =>
      match sep s w with
      | (Oof, w1) => (Oof, w1)
      | (Err, w1) => (Ok s [], w1)
      | (Ok r1 _, w1) =>
          match p r1 w1 with
          | (Oof, w2) => (Oof, w2)
          | (Err, w2) => (Ok s [], w2)
          | (Ok r2 a, w2) =>
              if (List.length r2 =? List.length s) then (Err, w2)
              else match esep_go f sep p r2 w2 with (Ok r' l, w3) => (Ok r' (a :: l), w3) | e => e end
          end
      end
  end.
Definition eseparated_list1 {W A B} (sep : eparser W B) (p : eparser W A) : eparser W (list A) :=
  ebind p (fun a => emap (cons a) (fun s w => esep_go (S (List.length s)) sep p s w)).
Definition eseparated_list0 {W A B} (sep : eparser W B) (p : eparser W A) : eparser W (list A) :=
  fun s w => match p s w with
             | (Oof, w') => (Oof, w')
             | (Err, w') => (Ok s [], w')
             | (Ok r a, w') => emap (cons a) (fun s w => esep_go (S (List.length s)) sep p s w) r w'
             end.
(** [let (_, x) = p.parse(content)?]: see [ParserConfig.nested] *)
Definition enested {W A} (p : eparser W A) (content : str) : eparser W A :=
  fun s w => match p content w with (Ok _ a, w') => (Ok s a, w') | (Err, w') => (Err, w') | (Oof, w') => (Oof, w') end.
