(** The part of the external crate [nom] 8 used by the parser, re-modelled
    from its documented behaviour (the crate's sources are not in the
    sandbox).  A parser maps an input to the remaining input and a value, or
    to a (recoverable) error.  [Oof] ("out of fuel") is not a behaviour of the
    program: it marks exhaustion of the recursion fuel of the model, and is
    proved unreachable (ParserTotal.v).  Only [Err::Error] is modelled: the
    complete parsers used never return [Failure] or [Incomplete]. *)
From Coq Require Import String.
From Verif Require Export Chars.
Import ListNotations.
Open Scope list_scope.

Inductive res (A : Type) := Ok (rest : str) (a : A) | Err | Oof.
Arguments Ok {A}. Arguments Err {A}. Arguments Oof {A}.
Definition parser (A : Type) := str -> res A.

Definition ret {A} (a : A) : parser A := fun s => Ok s a.
Definition bind {A B} (p : parser A) (f : A -> parser B) : parser B :=
  fun s => match p s with Ok r a => f a r | Err => Err | Oof => Oof end.
Notation "x <- p ;; q" := (bind p (fun x => q)) (at level 61, p at next level, right associativity).
Notation "' pat <- p ;; q" := (bind p (fun x => match x with pat => q end))
  (at level 61, pat pattern, p at next level, right associativity).

(** [combinator::fail, map, value, opt, not, peek, verify, map_opt, recognize] *)
Definition fail {A} : parser A := fun _ => Err.
Definition pmap {A B} (f : A -> B) (p : parser A) : parser B := bind p (fun a => ret (f a)).
Definition value {A B} (v : B) (p : parser A) : parser B := pmap (fun _ => v) p.
Definition opt {A} (p : parser A) : parser (option A) :=
  fun s => match p s with Ok r a => Ok r (Some a) | Err => Ok s None | Oof => Oof end.
Definition not_ {A} (p : parser A) : parser unit :=
  fun s => match p s with Ok _ _ => Err | Err => Ok s tt | Oof => Oof end.
Definition peek {A} (p : parser A) : parser A :=
  fun s => match p s with Ok _ a => Ok s a | Err => Err | Oof => Oof end.
Definition verify {A} (p : parser A) (f : A -> bool) : parser A :=
  bind p (fun a => if f a then ret a else fail).
Definition map_opt {A B} (p : parser A) (f : A -> option B) : parser B :=
  bind p (fun a => match f a with Some b => ret b | None => fail end).
Definition recognize {A} (p : parser A) : parser str :=
  fun s => match p s with
           | Ok r _ => Ok r (firstn (List.length s - List.length r) s)
           | Err => Err | Oof => Oof end.

(** [sequence::preceded, terminated, delimited, pair] *)
Definition preceded {A B} (p : parser A) (q : parser B) : parser B := bind p (fun _ => q).
Definition terminated {A B} (p : parser A) (q : parser B) : parser A := bind p (fun a => value a q).
Definition delimited {A B C} (p : parser A) (q : parser B) (t : parser C) : parser B := preceded p (terminated q t).
Definition pair_ {A B} (p : parser A) (q : parser B) : parser (A * B) := bind p (fun a => pmap (fun b => (a, b)) q).

(** [branch::alt] *)
Definition or_else {A} (p q : parser A) : parser A :=
  fun s => match p s with Err => q s | r => r end.
Fixpoint alt {A} (l : list (parser A)) : parser A :=
  match l with
  | [] => fail
  | [p] => p
  | p :: l' => or_else p (alt l')
  end.

(** [multi::many0, many1, many_m_n, separated_list0/1].  The loops carry fuel;
    every round must consume input, so the length of the input suffices. *)
Fixpoint many0_go {A} (fuel : nat) (p : parser A) (s : str) : res (list A) :=
  match fuel with
  | O => Oof
  | S f =>
      match p s with
      | Oof => Oof
      | Err => Ok s []
      | Ok r a =>
          if (List.length r =? List.length s) then Err
          else match many0_go f p r with Ok r' l => Ok r' (a :: l) | e => e end
      end
  end.
Definition many0 {A} (p : parser A) : parser (list A) := fun s => many0_go (S (List.length s)) p s.
Definition many1 {A} (p : parser A) : parser (list A) := bind p (fun a => pmap (cons a) (many0 p)).
(** at most [max] rounds, at least [min] of them *)
Fixpoint many_m_n {A} (min max : nat) (p : parser A) : parser (list A) :=
  fun s =>
  match max with
  | O => Ok s []
  | S max' =>
      match p s with
      | Oof => Oof
      | Err => match min with O => Ok s [] | S _ => Err end
      | Ok r a =>
          if (List.length r =? List.length s) then Err
          else match many_m_n (pred min) max' p r with Ok r' l => Ok r' (a :: l) | e => e end
      end
  end.
(** [many_m_n(min, usize::MAX, p)], [many(min.., p)]: [usize::MAX] is never reached *)
Definition many_ge {A} (min : nat) (p : parser A) : parser (list A) :=
  fun s => many_m_n min (S (List.length s) + min) p s.
Fixpoint sep_go {A B} (fuel : nat) (sep : parser B) (p : parser A) (s : str) : res (list A) :=
  match fuel with
  | O => Oof
  | S f =>
      match sep s with
      | Oof => Oof
      | Err => Ok s []
      | Ok r1 _ =>
          match p r1 with
          | Oof => Oof
          | Err => Ok s []
          | Ok r2 a =>
              if (List.length r2 =? List.length s) then Err
              else match sep_go f sep p r2 with Ok r' l => Ok r' (a :: l) | e => e end
          end
      end
  end.
Definition separated_list1 {A B} (sep : parser B) (p : parser A) : parser (list A) :=
  bind p (fun a => pmap (cons a) (fun s => sep_go (S (List.length s)) sep p s)).
Definition separated_list0 {A B} (sep : parser B) (p : parser A) : parser (list A) :=
  fun s => match p s with
           | Oof => Oof
           | Err => Ok s []
           | Ok r a => pmap (cons a) (fun s => sep_go (S (List.length s)) sep p s) r
           end.

(** [bytes::complete] and [character::complete] *)
Definition satisfy (f : char -> bool) : parser char :=
  fun s => match s with c :: s' => if f c then Ok s' c else Err | [] => Err end.
Definition char_ (c : char) : parser char := satisfy (N.eqb c).
Definition chr (s : string) : parser char := char_ (ch s).
Arguments chr s%string.
Definition anychar : parser char := satisfy (fun _ => true).
Definition one_of (l : str) : parser char := satisfy (fun c => existsb (N.eqb c) l).
Definition none_of (l : str) : parser char := satisfy (fun c => negb (existsb (N.eqb c) l)).
Fixpoint tag_go (eqb : char -> char -> bool) (t s : str) : option str :=
  match t, s with
  | [], _ => Some s
  | x :: t', y :: s' => if eqb x y then tag_go eqb t' s' else None
  | _ :: _, [] => None
  end.
Definition tag_by (eqb : char -> char -> bool) (t : str) : parser str :=
  fun s => match tag_go eqb t s with Some r => Ok r (firstn (List.length t) s) | None => Err end.
Definition tag (t : str) : parser str := tag_by N.eqb t.
Definition tag_no_case (t : str) : parser str := tag_by (fun a b => N.eqb (to_lower a) (to_lower b)) t.
Fixpoint span (f : char -> bool) (s : str) : str * str :=
  match s with
  | c :: s' => if f c then let (a, b) := span f s' in (c :: a, b) else ([], s)
  | [] => ([], [])
  end.
Definition take_while (f : char -> bool) : parser str := fun s => let (a, b) := span f s in Ok b a.
Definition take_while1 (f : char -> bool) : parser str :=
  fun s => let (a, b) := span f s in match a with [] => Err | _ => Ok b a end.
Definition is_space (c : char) : bool := N.eqb c 32 || N.eqb c 9.
Definition space0 : parser str := take_while is_space.
Definition space1 : parser str := take_while1 is_space.
Definition multispace0 : parser str := take_while (fun c => is_space c || N.eqb c 10 || N.eqb c 13).
Definition alpha1 : parser str := take_while1 is_alpha.
Definition alphanumeric1 : parser str := take_while1 is_alnum.
Definition digit1 : parser str := take_while1 is_digit.
Definition hex_digit1 : parser str := take_while1 is_hex.
Definition eof : parser str := fun s => match s with [] => Ok [] [] | _ => Err end.
Definition line_ending : parser str := alt [tag [c_nl]; tag [c_cr; c_nl]].
(** stops at a line ending; a carriage return that is not part of one is an error *)
Definition not_line_ending : parser str :=
  fun s => let (a, b) := span (fun c => negb (N.eqb c 10 || N.eqb c 13)) s in
           match b with
           | c :: b' => if N.eqb c 13 then match b' with d :: _ => if N.eqb d 10 then Ok b a else Err | [] => Err end
                        else Ok b a
           | [] => Ok b a
           end.
(** [u64]: decimal digits; error on overflow *)
Definition u64 : parser N :=
  fun s => let (a, b) := span is_digit s in
           match a with
           | [] => Err
           | _ => if (dec_value a <=? u64_max)%N then Ok b (dec_value a) else Err
           end.
