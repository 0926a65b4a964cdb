(** Rendering is compositional: the ends of printed blocks. *)
From Coq Require Import String Lia.
From Verif Require Export JoinFacts.
From Verif Require Import RoundBlocks.
Import ListNotations.
Open Scope list_scope.

Lemma okend_concat : forall i l acc, okend i acc -> Forall (okend i) l -> okend i (fold_left append l acc).
Proof. intros i l. induction l as [|x l IH]; intros acc A F; [exact A|]. inversion F; subst. cbn. apply IH; [now apply okend_append|assumption]. Qed.
Lemma firm_concat : forall l x acc, firm x -> firm (fold_left append (l ++ [x]) acc).
Proof. intros l x acc F. rewrite fold_left_app. cbn. now apply firm_append. Qed.
Lemma okend_intersperse : forall l, Forall (okend 0) l -> okend 0 (intersperse l DHardline).
Proof.
  intros [|x l] F; [exact I|]. inversion F as [|? ? X FL]; subst. cbn [intersperse]. clear F. revert x X. induction FL as [|y l Y FL IH]; intros x X; [exact X|].
  cbn [fold_left]. apply IH. apply okend_append; [apply okend_append; [exact X|reflexivity]|exact Y].
Qed.
Lemma firm_intersperse : forall l x sep, firm x -> firm (intersperse (l ++ [x]) sep).
Proof.
  intros [|y l] x sep F; [exact F|]. cbn [app intersperse]. rewrite fold_left_app. cbn [fold_left]. now apply firm_append.
Qed.
Lemma noend_intersperse : forall l sep, at_last firm l -> noend (intersperse l sep).
Proof.
  intros l sep H. destruct l as [|x l _] using rev_ind; [exact I|]. apply firm_intersperse. induction l as [|y l IH]; [exact H|]. apply IH. destruct l; exact H.
Qed.
Lemma at_last_all : forall A (P : A -> Prop) l, Forall P l -> at_last P l.
Proof. intros A P l F. induction F as [|x l X F IH]; [exact I|]. destruct l; [exact X|exact IH]. Qed.
Lemma at_last_snoc : forall A (P : A -> Prop) l x, at_last P (l ++ [x]) <-> P x.
Proof. intros A P l x. induction l as [|y l IH]; [reflexivity|]. rewrite <- IH. destruct l; reflexivity. Qed.
Lemma firm_text : forall s, firm (DText s).
Proof. intros s. split; [discriminate|exact I]. Qed.

Section Blocks.
Variable uwidth : str -> nat.
Variable upper : char -> str.
Variable udigit : char -> bool.
Variable big : nat.
Variable config : md_config.
Local Notation md_inline := (md_inline udigit).
Local Notation md_inlines := (md_inlines udigit).
Local Notation md_block := (md_block uwidth upper udigit big config).

(** ** Inlines *)
Lemma ok_safe : forall l acc, okend 0 acc -> okend 0 (safe_text_go udigit l acc).
Proof.
  induction l as [|[w|] l IH]; intros acc A; [exact A| |]; cbn [safe_text_go]; apply IH; apply okend_append; try exact A; try exact I.
  destruct (find_next_word l) as [w|]; [destruct (is_safe_line_break_before udigit w)|]; cbn; auto.
Qed.
Lemma ok_inline : forall nl i, okend 0 (md_inline nl i).
Proof.
  intros nl i. induction i using inline_ind'; cbn [MdPrinter.md_inline]; try exact I.
  all: try (destruct nl; [apply ok_safe; exact I|apply okend_concat; [exact I|]; apply Forall_map; apply Forall_forall; intros [w|] _; exact I]; fail).
  all: repeat first [exact I | assumption | apply okend_append | apply okend_concat; [exact I|now apply Forall_map] | match goal with |- okend _ (match ?x with _ => _ end) => destruct x end].
Qed.
Lemma ok_inlines : forall nl l, okend 0 (md_inlines nl l).
Proof. intros. apply okend_concat; [exact I|]. apply Forall_map. apply Forall_forall. intros x _. apply ok_inline. Qed.
Lemma firm_safe : forall l acc, last l None <> None -> firm (safe_text_go udigit l acc).
Proof.
  induction l as [|x l IH]; intros acc N; [now elim N|]. destruct l as [|y l].
  - destruct x as [w|]; [|now elim N]. cbn. apply firm_append, firm_text.
  - destruct x as [w|]; cbn [safe_text_go]; apply IH; exact N.
Qed.
Lemma last_token : forall t c, is_whitespace c = false -> last (tokens (t ++ [c])) None <> None.
Proof.
  intros t c W. change (tokens (t ++ [c])) with (fold_right token_char [] (t ++ [c])). induction t as [|x t IH]; cbn [app fold_right].
  - unfold token_char. rewrite W. discriminate.
  - destruct (fold_right token_char [] (t ++ [c])) as [|o l]; [now elim IH|]. unfold token_char.
    destruct (is_whitespace x); destruct o as [w|]; try exact IH; try (destruct l; [discriminate|exact IH]); destruct l; try exact IH; discriminate.
Qed.
Lemma firm_inlines : forall l, ends_visibly l -> firm (md_inlines true l).
Proof.
  intros l (l' & i & -> & V). unfold MdPrinter.md_inlines, concat_docs. rewrite map_app. cbn [map]. apply firm_concat.
  destruct i; cbn [MdPrinter.md_inline]; try (repeat apply firm_append; apply firm_text); try contradiction.
  - destruct V as (t' & c & -> & W). rewrite MdView.split_with_spaces_tokens. apply firm_safe. now apply last_token.
  - destruct (list_eqb _ _ _); apply firm_append, firm_text.
Qed.

(** ** Sequences of blocks *)
Definition seps (b : block) : list doc :=
  match b with BList _ => if md_empty_line_before_list config then [DHardline; DHardline] else [DHardline] | _ => [DHardline; DHardline] end.
Fixpoint seq_docs (first : bool) (l : list (block * doc)) : list doc :=
  match l with
  | [] => []
  | (b, d) :: l' => (if first then [] else seps b) ++ d :: seq_docs false l'
  end.
Lemma blocks_go_docs : forall l acc first, blocks_go config acc first l = fold_left append (seq_docs first l) acc.
Proof.
  induction l as [|[b d] l IH]; intros acc first; [reflexivity|]. cbn [blocks_go seq_docs]. rewrite IH, fold_left_app. cbn [fold_left]. f_equal. f_equal.
  destruct first; [reflexivity|]. destruct b; try reflexivity. cbn [seps]. destruct (md_empty_line_before_list config); reflexivity.
Qed.
Lemma seq_docs_app : forall l1 l2 first, seq_docs first (l1 ++ l2) = seq_docs first l1 ++ seq_docs (match l1 with [] => first | _ => false end) l2.
Proof.
  induction l1 as [|[b d] l1 IH]; intros l2 first; [reflexivity|]. cbn [app seq_docs]. rewrite IH, <- app_assoc. cbn [app]. do 3 f_equal. now destruct l1.
Qed.
Lemma ok_seq : forall l first, Forall (fun x => okend 0 (snd x)) l -> Forall (okend 0) (seq_docs first l).
Proof.
  intros l first F. revert first. induction F as [|[b d] l D F IH]; intros first; [constructor|]. cbn [seq_docs]. apply Forall_app. split; [|constructor; [exact D|apply IH]].
  destruct first; [constructor|]. destruct b; cbn; try (repeat constructor; fail). destruct (md_empty_line_before_list config); repeat constructor.
Qed.
Lemma firm_seq : forall l x first acc, firm (snd x) -> firm (fold_left append (seq_docs first (l ++ [x])) acc).
Proof.
  intros l [b d] first acc F. rewrite seq_docs_app. cbn [seq_docs]. rewrite app_assoc. now apply firm_concat.
Qed.
Definition bdocs (l : list block) : list (block * doc) := map (fun x => (x, md_block x)) l.
(** *** at the left margin: only the end of the last block matters *)
Lemma ok_blocks : forall l, at_last tidy l -> Forall (fun b => tidy b -> okend 0 (md_block b)) l ->
  forall acc first, okend 0 acc -> okend 0 (fold_left append (seq_docs first (bdocs l)) acc).
Proof.
  intros l T F acc first A. destruct l as [|x l _] using rev_ind; [exact A|]. rewrite at_last_snoc in T. apply Forall_app in F as [_ F]. inversion F as [|? ? X _]; subst.
  unfold bdocs. rewrite map_app, seq_docs_app. cbn [map seq_docs]. rewrite app_assoc, fold_left_app. cbn [fold_left]. specialize (X T).
  set (acc' := fold_left append _ acc).
  assert (A' : md_block x <> DNil \/ okend 0 acc').
  { destruct (md_block x) eqn:E; try (left; discriminate). right. unfold acc'. rewrite fold_left_app.
    destruct l as [|y l]; [cbn [map seq_docs fold_left]; destruct first; cbn [fold_left]; [exact A|]|cbn [map]].
    - destruct x; cbn [seps fold_left]; repeat (apply okend_append; [|reflexivity]); try exact A. destruct (md_empty_line_before_list config); cbn [fold_left]; repeat (apply okend_append; [|reflexivity]); exact A.
    - set (z := fold_left append (seq_docs first _) acc). destruct x; cbn [seps fold_left]; try (destruct (append z DHardline); exact I || reflexivity).
      all: try (destruct z; reflexivity). destruct (md_empty_line_before_list config); cbn [fold_left]; destruct z; reflexivity. }
  destruct A' as [N|A']; [|now apply okend_append]. destruct acc', (md_block x); try congruence; try exact X.
Qed.
(** *** anywhere *)
Lemma firm_blocks : forall l, l <> [] -> at_last visible_end l -> Forall (fun b => visible_end b -> firm (md_block b)) l ->
  firm (blocks_doc config (bdocs l)).
Proof.
  intros l N T F. destruct l as [|x l _] using rev_ind; [congruence|]. rewrite at_last_snoc in T. apply Forall_app in F as [_ F]. inversion F as [|? ? X _]; subst.
  unfold blocks_doc. rewrite blocks_go_docs. unfold bdocs. rewrite map_app. apply firm_seq. now apply X.
Qed.

(** ** The kinds of blocks *)
Lemma firm_item : forall k c n task bs, bs = DNil \/ firm bs -> firm (item_doc config k c n task bs).
Proof.
  intros k c n task bs [-> | F]; unfold item_doc.
  - replace (group (nest n DNil)) with DNil by reflexivity. destruct task as [[|]|]; repeat first [apply firm_text | apply firm_append; first [apply firm_text | apply firm_append, firm_text]];
      cbn [append]; split; (discriminate || exact I).
  - apply firm_append. destruct F as [N E]. destruct n as [|n]; cbn [nest]; destruct bs; try congruence; (split; [discriminate|exact E]).
Qed.
Lemma firm_items : forall k its c n, at_last (fun x => snd x = DNil \/ firm (snd x)) its -> at_last firm (items_go config k c n its).
Proof.
  intros k its. induction its as [|[task bs] its IH]; intros c n H; [exact I|]. cbn [items_go].
  assert (G : forall c', at_last firm (item_doc config k c n task bs :: items_go config k c' n its)).
  { intro c'. destruct its as [|y its]; [cbn; now apply firm_item|]. specialize (IH c' n). change (at_last firm (item_doc config k c n task bs :: items_go config k c' n (y :: its))) with
      (match items_go config k c' n (y :: its) with [] => firm (item_doc config k c n task bs) | _ => at_last firm (items_go config k c' n (y :: its)) end).
    specialize (IH H). destruct (items_go config k c' n (y :: its)) eqn:E; [|exact IH].
    cbn [items_go] in E. destruct y, k; [destruct (c' <? u64_max)%N|]; discriminate E. }
  destruct k; [destruct (c <? u64_max)%N; [apply G|split; [discriminate|exact I]]|apply G].
Qed.
Lemma items_some : forall k its c n, its <> [] -> items_go config k c n its <> [].
Proof. intros k [|[t b] its] c n H; [congruence|]. cbn. destruct k; [destruct (c <? u64_max)%N|]; discriminate. Qed.
Lemma firm_last : forall l sep, at_last firm l -> l <> [] -> firm (intersperse l sep).
Proof. intros l sep H N. destruct l as [|x l _] using rev_ind; [congruence|]. rewrite at_last_snoc in H. now apply firm_intersperse. Qed.
Lemma firm_list : forall k its, its <> [] -> at_last (fun x => snd x = DNil \/ firm (snd x)) its -> firm (md_list config k its).
Proof.
  intros k its N H. unfold md_list. destruct k as [start|b].
  - destruct (_ || _); [split; [discriminate|exact I]|]. apply firm_last; [now apply firm_items|now apply items_some].
  - apply firm_last; [now apply firm_items|now apply items_some].
Qed.
Lemma noend_list : forall k its, at_last (fun x => snd x = DNil \/ firm (snd x)) its -> noend (md_list config k its).
Proof.
  intros k its H. destruct its as [|y its].
  - unfold md_list. destruct k as [start|b]; [destruct (_ || _)|]; exact I.
  - apply firm_list; [discriminate|exact H].
Qed.
Lemma noend_quote : forall d n, noend (quote_at uwidth config d n).
Proof.
  intros d n. unfold quote_at. destruct (_ <? _); [exact I|]. destruct (render _ _ d) as [text|]; [|exact I]. apply noend_intersperse. apply at_last_all. apply Forall_map. apply Forall_forall. intros l _.
  split; [discriminate|exact I].
Qed.
Lemma firm_alert : forall t h d, firm (md_alert uwidth upper t h d).
Proof.
  intros t h d. unfold md_alert. destruct h; [|split; [discriminate|exact I]]. destruct (render _ _ d) as [text|]; [|split; [discriminate|exact I]].
  apply firm_last; [|discriminate]. apply at_last_all. apply Forall_map. apply Forall_forall. intros l _. apply firm_text.
Qed.
Lemma firm_table : forall t, t_rows t <> [] -> firm (md_table uwidth udigit big t).
Proof.
  intros t N. unfold md_table. destruct (t_rows t); [congruence|]. destruct (table_content _ _ _ _); [|split; [discriminate|exact I]].
  destruct (render _ _ _); split; (discriminate || exact I).
Qed.
Lemma noend_table : forall t, noend (md_table uwidth udigit big t).
Proof. intros t. destruct (t_rows t) eqn:E; [unfold md_table; rewrite E; exact I|]. apply firm_table. congruence. Qed.
Lemma last_items : forall its, Forall (fun it => Forall (fun b => visible_end b -> firm (md_block b)) (li_blocks it)) its ->
  at_last (fun it => at_last visible_end (li_blocks it)) its ->
  at_last (fun x => snd x = DNil \/ firm (snd x)) (map (fun it => (li_task it, blocks_doc config (bdocs (li_blocks it)))) its).
Proof.
  intros its F H. destruct its as [|it its _] using rev_ind; [exact I|]. rewrite map_app. cbn [map]. rewrite at_last_snoc in *. cbn [snd].
  apply Forall_app in F as [_ F]. inversion F; subst. destruct (li_blocks it) eqn:E; [now left|]. right. rewrite <- E in *. apply firm_blocks; [congruence|assumption|assumption].
Qed.
Lemma firm_block : forall b, visible_end b -> firm (md_block b).
Proof.
  intros b. induction b as [c|h| |bs IH|k items IH|c|s|d|t|l bs IH|t bs IH|] using block_ind'; intros V; cbn [MdPrinter.md_block]; cbn [visible_end] in V.
  - now apply firm_inlines.
  - unfold md_heading. destruct (h_kind h) as [n|[|]]; try (apply firm_append, firm_text).
    set (x := append (DText _) space). assert (N : forall l, noend (md_inlines false l)).
    { clear. intros l. unfold MdPrinter.md_inlines. unfold concat_docs. assert (F : Forall (fun i => noend (md_inline false i)) l).
      { apply Forall_forall. intros i _. induction i using inline_ind'; cbn [MdPrinter.md_inline]; try exact I; try (apply firm_append, firm_text).
        - assert (G : forall ws acc, noend acc -> noend (fold_left append (map (fun v : option str => match v with Some w => DText w | None => space end) ws) acc)).
          { induction ws as [|w ws IH]; intros acc A; [exact A|]. cbn [map fold_left]. apply IH. destruct acc, w; exact I. }
          apply (G _ DNil I).
        - destruct (list_eqb _ _ _); apply firm_append, firm_text. }
      assert (G : forall acc, noend acc -> noend (fold_left append (map (md_inline false) l) acc)); [|now apply G].
      induction F as [|i l X F IH]; intros acc A; [exact A|]. cbn [map fold_left]. apply IH. destruct acc, (md_inline false i); try exact X; try exact A. }
    specialize (N (h_content h)). split; [destruct (md_inlines false (h_content h)); discriminate|]. destruct (md_inlines false (h_content h)); exact N || exact I.
  - apply firm_text.
  - split; [discriminate|]. intro n. apply noend_quote.
  - cbn [l_items l_kind] in *. apply firm_list; [intro E; apply map_eq_nil in E; now destruct V|]. now apply last_items.
  - destruct c as [[|info] lit0]; cbn [md_code_block]; [apply firm_text|apply firm_append, firm_text].
  - apply firm_text.
  - unfold md_definition. apply firm_append, firm_text.
  - now apply firm_table.
  - cbn [fd_label fd_blocks] in *. destruct bs as [|b bs]; [cbn; apply firm_text|]. apply firm_append. apply (firm_blocks (b :: bs)); [discriminate|exact V|exact IH].
  - apply firm_alert.
  - contradiction.
Qed.
Lemma ok_block : forall b, tidy b -> okend 0 (md_block b).
Proof.
  intros b. induction b as [c|h| |bs IH|k items IH|c|s|d|t|l bs IH|t bs IH|] using block_ind'; intros V.
  - apply ok_inlines.
  - apply noend_okend. now apply (firm_block (BHeading h)).
  - exact I.
  - intro n. apply noend_okend. apply noend_quote.
  - apply noend_okend. cbn [MdPrinter.md_block l_items l_kind]. apply noend_list. apply last_items; [|exact V].
    apply Forall_forall. intros it _. apply Forall_forall. intros b _. apply firm_block.
  - apply noend_okend. now apply (firm_block (BCodeBlock c)).
  - exact I.
  - apply noend_okend. now apply (firm_block (BDefinition d)).
  - apply noend_okend. apply noend_table.
  - cbn [MdPrinter.md_block fd_label fd_blocks]. apply okend_append; [exact I|]. unfold blocks_doc. rewrite blocks_go_docs. apply ok_blocks; [exact V|exact IH|exact I].
  - apply noend_okend. now apply (firm_block (BGitHubAlert (GitHubAlert t bs))).
  - exact I.
Qed.

(** ** Documents put together *)
Lemma render_docs : forall l, render_markdown uwidth upper udigit big (Document l) config =
  option_map fst (run uwidth (md_width config) (solids (seq_docs true (bdocs l))) [] 0).
Proof.
  intro l. unfold render_markdown, md_blocks. cbn [d_blocks]. fold (bdocs l). unfold blocks_doc. rewrite blocks_go_docs. unfold render. now rewrite best_concat.
Qed.
Lemma seps_solid : forall b, solids (seps b) = seps b.
Proof. intros b. destruct b; try reflexivity. cbn. destruct (md_empty_line_before_list config); reflexivity. Qed.
Lemma run_seps : forall b rest pos, hd_ind rest = None \/ hd_ind rest = Some 0 ->
  run uwidth (md_width config) (seps b) rest pos = Some (block_separator config [b], 0).
Proof.
  intros b rest pos H.
  assert (E : match rest with [] => 0 | (i, _, _) :: _ => i end = 0) by (destruct rest as [|[[i ?] ?] ?]; [reflexivity|destruct H as [H|H]; cbn in H; congruence]).
  assert (E1 : forall p, best uwidth (md_width config) 0 Break DHardline rest p = Some ([c_nl], 0)) by (intro p; cbn [best]; rewrite E; reflexivity).
  assert (E2 : run uwidth (md_width config) [DHardline] rest pos = Some ([c_nl], 0)) by (unfold run; change (pend [] ++ rest) with rest; now rewrite E1).
  assert (E3 : run uwidth (md_width config) [DHardline; DHardline] rest pos = Some ([c_nl; c_nl], 0)).
  { cbn [run]. change (pend [DHardline] ++ rest) with ((0, Break, DHardline) :: rest). change (best uwidth (md_width config) 0 Break DHardline ((0, Break, DHardline) :: rest) pos) with (Some ([c_nl], 0)).
    change (pend [] ++ rest) with rest. cbv beta iota. rewrite E1. reflexivity. }
  destruct b; cbn [seps block_separator]; try exact E3. destruct (md_empty_line_before_list config); [exact E3|exact E2].
Qed.
Lemma seq_end : forall l x first, tidy x -> at_last (okend 0) (solids (seq_docs first (bdocs (l ++ [x])))).
Proof.
  intros l x first T. unfold bdocs. rewrite map_app, seq_docs_app. cbn [map seq_docs]. rewrite !solids_app. cbn [solids filter].
  pose proof (ok_block x T) as O. destruct (nonnil (md_block x)) eqn:E.
  - fold (solids []). cbn [solids filter]. rewrite app_assoc. now apply at_last_snoc.
  - cbn [app]. rewrite app_nil_r. destruct (match map _ l with [] => first | _ => false end) eqn:F.
    + destruct l; [exact I|discriminate F].
    + fold (solids (seps x)). rewrite seps_solid. destruct x; cbn [seps]; try (change [DHardline; DHardline] with ([DHardline] ++ [DHardline]); rewrite app_assoc; now apply at_last_snoc).
      destruct (md_empty_line_before_list config); [change [DHardline; DHardline] with ([DHardline] ++ [DHardline]); rewrite app_assoc|]; now apply at_last_snoc.
Qed.
Lemma hd_pend : forall l, hd_ind (pend l) = None \/ hd_ind (pend l) = Some 0.
Proof. intros [|x l]; [now left|now right]. Qed.
Theorem render_join : forall l x y m, tidy x ->
  render_markdown uwidth upper udigit big (Document ((l ++ [x]) ++ y :: m)) config =
  match render_markdown uwidth upper udigit big (Document (l ++ [x])) config, render_markdown uwidth upper udigit big (Document (y :: m)) config with
  | Some o, Some o' => Some (o ++ block_separator config (y :: m) ++ o')
  | _, _ => None
  end.
Proof.
  intros l x y m T. rewrite !render_docs. unfold bdocs at 1. rewrite map_app. fold (bdocs (l ++ [x])). rewrite seq_docs_app, solids_app.
  replace (match bdocs (l ++ [x]) with [] => true | _ => false end) with false by (unfold bdocs; destruct l; reflexivity).
  set (first := solids (seq_docs true (bdocs (l ++ [x])))).
  assert (S2 : solids (seq_docs false (map (fun z => (z, md_block z)) (y :: m))) = seps y ++ solids (seq_docs true (bdocs (y :: m)))).
  { unfold bdocs. cbn [map seq_docs app]. rewrite solids_app, seps_solid. reflexivity. }
  rewrite S2. set (second := solids (seq_docs true (bdocs (y :: m)))). rewrite run_app.
  assert (SN : exists r, seps y = DHardline :: r) by (destruct y; cbn; try (eexists; reflexivity); destruct (md_empty_line_before_list config); eexists; reflexivity).
  rewrite (JoinFacts.run_end uwidth (md_width config) first (pend (seps y ++ second) ++ []) 0).
  - destruct (run uwidth (md_width config) first [] 0) as [[s p]|]; [|reflexivity]. cbn [option_map fst]. rewrite run_app, app_nil_r, run_seps by apply hd_pend.
    destruct (run uwidth (md_width config) second [] 0) as [[s' p']|]; [|reflexivity]. cbn [option_map fst]. f_equal.
  - now apply seq_end.
  - intro p. destruct SN as [r ->]. reflexivity.
  - destruct SN as [r ->]. reflexivity.
Qed.
End Blocks.
