(** Proof of C93. *)
From Coq Require Import String Lia.
From Verif Require Import HtmlFacts HtmlProps SpecSafe.
Import ListNotations.
Open Scope list_scope.

Notation ok := (Forall harmless_token).
Lemma ok_chars : forall s, ok (map TChar s).
Proof. intros s. apply Forall_map. apply Forall_forall. intros; exact I. Qed.
Lemma ok_elem : forall n keys a kids, In (n, keys) harmless -> Forall (fun kv => exists key, In key keys /\ fst kv = lit key) a ->
  ok (flatten_all kids) -> ok (flatten_all [Elem (lit n) a kids]).
Proof.
  intros n keys a kids I A K. unfold flatten_all in *. cbn [flat_map flatten]. rewrite app_nil_r. constructor; [exists n, keys; now repeat split|].
  apply Forall_app. split; [exact K|]. constructor; [exact Logic.I|constructor].
Qed.
Lemma ok_app : forall a b, ok (flatten_all a) -> ok (flatten_all b) -> ok (flatten_all (a ++ b)).
Proof. intros a b A B. unfold flatten_all. rewrite flat_map_app. apply Forall_app. now split. Qed.
Lemma ok_flat : forall A (f : A -> list node) l, Forall (fun x => ok (flatten_all (f x))) l -> ok (flatten_all (flat_map f l)).
Proof. intros A f l H. induction H; [constructor|]. cbn [flat_map]. now apply ok_app. Qed.
Lemma ok_map : forall A (f : A -> node) l, Forall (fun x => ok (flatten_all [f x])) l -> ok (flatten_all (map f l)).
Proof. intros A f l H. induction H as [|x l X _ IH]; [constructor|]. cbn [map]. change (f x :: map f l) with ([f x] ++ map f l). now apply ok_app. Qed.
Ltac key := match goal with |- exists key, In key _ /\ fst (lit ?k, _) = lit key => exists k; split; [cbn; tauto|reflexivity] | |- exists key, In key _ /\ _ = lit ?k => exists k; split; [cbn; tauto|reflexivity] end.
Ltac el := unfold elem; eapply ok_elem; [cbn; tauto|repeat (apply Forall_cons; [key|]); try apply Forall_nil|].

Section View.
  Variable attr : str -> str.
  Variable prefix : str.
  Variable num : str -> option N.
  Variable def : list inline -> option link_definition.
  Lemma title_ok : forall t keys, In "title"%string keys -> Forall (fun kv => exists key, In key keys /\ fst kv = lit key) (vtitle attr t).
  Proof. intros [t|] keys H; constructor; [|constructor]. now exists "title"%string. Qed.
  Definition no_html (i : inline) : Prop := forall s, i <> IHtml s.
  Lemma kids_ok : forall (f : inline -> list node) c, Forall (fun i => Forall no_html (inline_preorder i) -> ok (flatten_all (f i))) c ->
    Forall no_html (flat_map inline_preorder c) -> ok (flatten_all (flat_map f c)).
  Proof.
    intros f c H N. apply ok_flat. induction H as [|i c Hi _ IH]; [constructor|]. cbn [flat_map] in N. apply Forall_app in N as [N1 N2]. constructor; auto.
  Qed.
  Lemma inline_ok : forall i, Forall no_html (inline_preorder i) -> ok (flatten_all (view_inline attr prefix num def i)).
  Proof.
    induction i as [s| |s|s|d t c IH|l t IHl IH|[d t a]|c IH|c IH|c IH|s|s|] using inline_ind'; intros N; cbn [view_inline inline_preorder] in *; apply Forall_inv_tail in N as N';
      try (el; try (now apply kids_ok); unfold flatten_all; cbn [flat_map flatten]; rewrite ?app_nil_r; try apply ok_chars; constructor).
    - unfold flatten_all. cbn [flat_map flatten]. rewrite app_nil_r. apply ok_chars.
    - apply Forall_inv in N. now elim (N s).
    - cbn [link_destination link_title link_children] in *. eapply ok_elem; [cbn; tauto| |now apply kids_ok]. constructor; [key|]. apply title_ok. cbn. tauto.
    - cbn [lr_label lr_text] in *. apply Forall_app in N' as [_ N']. destruct (def l) as [x|]; [|constructor]. eapply ok_elem; [cbn; tauto| |now apply kids_ok]. constructor; [key|]. apply title_ok. cbn. tauto.
    - eapply ok_elem; [cbn; tauto| |constructor]. constructor; [key|]. constructor; [key|]. apply title_ok. cbn. tauto.
    - destruct (num s) as [n|]; [|constructor]. eapply ok_elem; [cbn; tauto| |].
      + cbn [cls app]. constructor; [key|]. constructor; [key|constructor].
      + unfold flatten_all. cbn [flat_map flatten]. rewrite app_nil_r. apply ok_chars.
    - constructor.
  Qed.
  Lemma inlines_ok : forall l, Forall no_html (flat_map inline_preorder l) -> ok (flatten_all (view_inlines attr prefix num def l)).
  Proof. intros l H. apply kids_ok; [|exact H]. apply Forall_forall. intros i _. apply inline_ok. Qed.
  (** no raw HTML, plain labels *)
  Definition plain_block (b : block) : Prop :=
    (forall s, b <> BHtmlBlock s) /\ (forall s bs, b = BGitHubAlert (GitHubAlert (Custom s) bs) -> plain_label s = true) /\
    Forall no_html (flat_map inline_preorder (block_inlines b)).
  Lemma blocks_kids_ok : forall (f : block -> list node) c, Forall (fun b => Forall plain_block (block_preorder b) -> ok (flatten_all (f b))) c ->
    Forall plain_block (flat_map block_preorder c) -> ok (flatten_all (flat_map f c)).
  Proof.
    intros f c H N. apply ok_flat. induction H as [|i c Hi _ IH]; [constructor|]. cbn [flat_map] in N. apply Forall_app in N as [N1 N2]. constructor; auto.
  Qed.
  Definition harmless_b (t : tok) : bool :=
    match t with
    | TOpen n a => existsb (fun x => str_eqb n (lit (fst x)) && forallb (fun kv => existsb (fun k => str_eqb (fst kv) (lit k)) (snd x)) a) harmless
    | _ => true
    end.
  Lemma harmless_check : forall ts, forallb harmless_b ts = true -> ok ts.
  Proof.
    intros ts H. apply Forall_forall. intros t I. apply (proj1 (forallb_forall _ _) H) in I. destruct t as [n a| |]; [|exact Logic.I..].
    apply existsb_exists in I as ((name & keys) & J & E). cbn [fst snd] in E. apply andb_prop in E as [E1 E2]. exists name, keys. split; [exact J|]. split; [now apply str_eqb_eq|].
    apply Forall_forall. intros kv K. apply (proj1 (forallb_forall _ _) E2) in K. apply existsb_exists in K as (k & K1 & K2). exists k. split; [exact K1|now apply str_eqb_eq].
  Qed.
  Lemma icon_ok : forall t, ok (flatten_all [Raw (svg_icon t)]).
  Proof. intros t. apply harmless_check. destruct t; vm_compute; reflexivity. Qed.
  Lemma block_ok : forall b, Forall plain_block (block_preorder b) -> ok (flatten_all (view_block attr prefix num def b)).
  Proof.
    induction b as [c|h| |bs IH|k items IH|c|s|d|t|l bs IH|t bs IH|] using block_ind'; intros N; cbn [view_block block_preorder] in *; apply Forall_inv_tail in N as N'; apply Forall_inv in N as (N1 & N2 & N3).
    - el. now apply inlines_ok.
    - destruct h as [k c]. cbn [h_kind h_content block_inlines] in *. destruct k as [n|[]]; cbn [hname]; [|el; now apply inlines_ok..].
      repeat match goal with |- context [if ?x then _ else _] => destruct x; [el; now apply inlines_ok|] end. el; now apply inlines_ok.
    - el. constructor.
    - el. now apply blocks_kids_ok.
    - cbn [l_kind l_items] in *. assert (X : ok (flatten_all (map (fun it => elem "li" [] (view_task (li_task it) ++ flat_map (view_block attr prefix num def) (li_blocks it))) items))).
      { apply ok_map. clear N1 N2 N3. induction IH as [|it items Hi _ IH]; [constructor|]. cbn [flat_map] in N'. apply Forall_app in N' as [A1 A2]. constructor; [|now apply IH].
        el. apply ok_app; [|now apply blocks_kids_ok]. destruct (li_task it) as [[]|]; [el..|constructor]; unfold flatten_all; cbn [flat_map flatten]; rewrite app_nil_r; apply ok_chars. }
      unfold view_list_elem. destruct k as [n|[]]; el; exact X.
    - el. el. unfold flatten_all. cbn [flat_map flatten]. rewrite app_nil_r. apply ok_chars.
    - now elim (N1 s).
    - constructor.
    - destruct t as [rows al]. cbn [t_rows t_alignments block_inlines] in *.
      assert (X : forall c al (r : list (list inline)), In c ["th"; "td"]%string -> Forall no_html (flat_map inline_preorder (concat r)) -> ok (flatten_all [view_row attr prefix num def c al r])).
      { intros c al' r Ic Hr. unfold view_row. el. revert al' Hr. induction r as [|x r IHr]; intros al' Hr; [constructor|]. cbn [view_cells concat] in *. rewrite flat_map_app in Hr. apply Forall_app in Hr as [A1 A2].
        match goal with |- ok (flatten_all (?a :: ?b)) => change (a :: b) with ([a] ++ b) end. apply ok_app; [|now apply IHr].
        destruct Ic as [<-|[<-|[]]]; el; now apply inlines_ok. }
      assert (Y : forall r, In r rows -> Forall no_html (flat_map inline_preorder (concat r))).
      { intros r Hr. apply Forall_forall. intros i Hi. apply (proj1 (Forall_forall _ _) N3). apply in_flat_map in Hi as (j & J1 & J2). apply in_flat_map. exists j. split; [|exact J2].
        apply in_concat in J1 as (x & X1 & X2). apply in_concat. exists x. split; [|exact X2]. apply in_concat. now exists r. }
      el. match goal with |- ok (flatten_all (?a :: ?b)) => change (a :: b) with ([a] ++ b) end. apply ok_app; el; apply ok_map; apply Forall_forall; intros r Hr; apply X; try (cbn; tauto); apply Y.
      + destruct rows as [|x rows]; [destruct Hr|]. destruct Hr as [<-|[]]. now left.
      + destruct rows as [|x rows]; [destruct Hr|]. now right.
    - destruct (num (fd_label (FootnoteDefinition l bs))) as [n|]; [|constructor]. cbn [fd_label fd_blocks] in *. el.
      match goal with |- ok (flatten_all (?a :: ?b)) => change (a :: b) with ([a] ++ b) end. apply ok_app; el; [unfold flatten_all; cbn [flat_map flatten]; rewrite app_nil_r; apply ok_chars|now apply blocks_kids_ok].
    - cbn [ga_type ga_blocks] in *. el. match goal with |- ok (flatten_all (?a :: ?b)) => change (a :: b) with ([a] ++ b) end. apply ok_app; [|now apply blocks_kids_ok]. el.
      match goal with |- ok (flatten_all (?a :: ?b)) => change (a :: b) with ([a] ++ b) end. apply ok_app; [apply icon_ok|]. unfold flatten_all; cbn [flat_map]. rewrite app_nil_r.
      destruct t; cbn [alert_title flatten]; try apply ok_chars. rewrite (plain_label_tokens _ (N2 _ _ eq_refl)). apply ok_chars.
    - constructor.
  Qed.
End View.
