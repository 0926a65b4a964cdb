(** Specification for C78, C79: the same JSON, and machine numbers. *)
From Coq Require Import String Permutation.
From Verif Require Export SpecAst Serde.
Import ListNotations.
Open Scope list_scope.

(** The same value: objects may list their fields in another order and leave out
    the fields named in [gone]. *)
Inductive rewritten (gone : str -> Prop) : json -> json -> Prop :=
| rw_null : rewritten gone JNull JNull
| rw_bool : forall b, rewritten gone (JBool b) (JBool b)
| rw_num : forall n, rewritten gone (JNum n) (JNum n)
| rw_str : forall s, rewritten gone (JStr s) (JStr s)
| rw_arr : forall l l', Forall2 (rewritten gone) l l' -> rewritten gone (JArr l) (JArr l')
| rw_obj : forall fs mid fs', rewritten_fields gone fs mid -> Permutation mid fs' -> rewritten gone (JObj fs) (JObj fs')
with rewritten_fields (gone : str -> Prop) : list (str * json) -> list (str * json) -> Prop :=
| rf_nil : rewritten_fields gone [] []
| rf_keep : forall k v v' fs fs', ~ gone k -> rewritten gone v v' -> rewritten_fields gone fs fs' ->
    rewritten_fields gone ((k, v) :: fs) ((k, v') :: fs')
| rf_drop : forall k v fs fs', gone k -> rewritten_fields gone fs fs' -> rewritten_fields gone ((k, v) :: fs) fs'.
(** only reordered; reordered and without user data *)
Definition reordered : json -> json -> Prop := rewritten (fun _ => False).
Definition without_user_data : json -> json -> Prop := rewritten (fun k => k = lit "user_data").

(** The numbers of a document are values of their Rust types ([u8], [u64]). *)
Definition machine_number (b : block) : Prop :=
  match b with
  | BHeading (Heading (Atx n) _) => (n < 2 ^ 8)%N
  | BList (MkList (Ordered n) _) => (n < 2 ^ 64)%N
  | _ => True
  end.
Definition machine_numbers (d : document) : Prop := forall b, In b (doc_blocks d) -> machine_number b.
