(** Reading printed code blocks and quotes. *)
From Coq Require Import String Lia.
From Verif Require Export RoundRead.
Import ListNotations.
Open Scope list_scope.
Local Notation len := (@List.length _).

(** ** Repetition *)
Lemma many0_end : forall A (p : parser A) s, p s = Err -> forall n, len s < n -> many0_go n p s = Ok s [].
Proof. intros A p s E n Hn. destruct n as [|n]; [lia|]. cbn [many0_go]. now rewrite E. Qed.
Lemma many0_last : forall A (p : parser A) s r b, p s = Ok r b -> len r < len s -> p r = Err -> forall n, len s < n -> many0_go n p s = Ok r [b].
Proof.
  intros A p s r b E L E2 n Hn. destruct n as [|n]; [lia|]. cbn [many0_go]. rewrite E.
  destruct (Nat.eqb_spec (len r) (len s)); [lia|]. rewrite (many0_end _ _ r E2) by lia. reflexivity.
Qed.
Lemma many0_pref : forall A X (p : parser A) (f : X -> str) (g : X -> A) s r l xs,
  (forall x t, In x xs -> p (f x ++ t) = Ok t (g x)) -> (forall x, In x xs -> f x <> []) ->
  (forall n, len s < n -> many0_go n p s = Ok r l) ->
  forall n, len (flat_map f xs ++ s) < n -> many0_go n p (flat_map f xs ++ s) = Ok r (map g xs ++ l).
Proof.
  intros A X p f g s r l xs Hp Hf Hs. induction xs as [|x xs IH]; intros n Hn; [now apply Hs|].
  destruct n as [|n]; [lia|]. cbn [flat_map many0_go]. cbn [flat_map] in Hn. rewrite <- app_assoc in *. rewrite Hp by now left.
  assert (N : f x <> []) by (apply Hf; now left). destruct (f x) as [|c t] eqn:E; [congruence|].
  match goal with |- context [(?a =? ?b)] => destruct (Nat.eqb_spec a b) as [Y|_] end.
  { cbn [app List.length] in Y. rewrite !app_length in Y. lia. }
  rewrite IH; [reflexivity|intros; apply Hp; now right|intros; apply Hf; now right|cbn [app List.length] in Hn; rewrite !app_length in *; lia].
Qed.

(** ** Fences *)
Definition fence_char (c : char) : Prop := c = backtick \/ c = ch "~".
Lemma fence_inked : forall c, fence_char c -> inked c.
Proof. intros c [->| ->]; repeat split; discriminate. Qed.
Lemma fence_sp : forall c, fence_char c -> c <> c_sp.
Proof. intros c [->| ->]; discriminate. Qed.
Lemma fence_nl : forall c, fence_char c -> c <> c_nl.
Proof. intros c [->| ->]; discriminate. Qed.
Definition not_head (c : char) (r : str) : Prop := match r with [] => True | d :: _ => d <> c end.
Lemma stops_head : forall c r, fence_char c -> stops r -> not_head c r.
Proof. intros c [|d r] H1 H2; [exact I|]. cbn in *. subst d. intro E. symmetry in E. now apply (fence_nl c). Qed.
Lemma tag_run : forall c n m r, not_head c r -> exists x, Nom.tag (rep n c) (rep m c ++ r) = (if n <=? m then Ok (rep (m - n) c ++ r) x else Err).
Proof.
  intros c n m r Hd. unfold Nom.tag, tag_by.
  assert (G : tag_go N.eqb (rep n c) (rep m c ++ r) = if n <=? m then Some (rep (m - n) c ++ r) else None).
  { revert m. induction n as [|n IH]; intros m; [cbn; now rewrite Nat.sub_0_r|]. destruct m as [|m].
    - cbn. destruct r as [|d r]; [reflexivity|]. cbn in Hd. destruct (N.eqb_spec c d); [congruence|reflexivity].
    - cbn [rep repeat app tag_go Nat.leb Nat.sub]. rewrite N.eqb_refl. fold (rep m c). fold (rep n c). apply IH. }
  rewrite G. destruct (n <=? m); [eexists; reflexivity|now exists []].
Qed.
Lemma char_head : forall c r, not_head c r -> char_ c r = Err.
Proof. intros c [|d r] H; [reflexivity|]. apply char_ne. cbn in H. congruence. Qed.
Lemma many0_run : forall c n r, not_head c r -> many0 (char_ c) (rep n c ++ r) = Ok r (rep n c).
Proof.
  intros c n r H. rewrite (many0_steps _ _ (fun x => x)); [now rewrite map_id| |now apply char_head].
  intros x s I. apply repeat_spec in I. subst x. apply char_same.
Qed.
Lemma many_ge_run : forall c lo n r, lo <= n -> not_head c r -> exists x, many_ge lo (char_ c) (rep n c ++ r) = Ok r x.
Proof.
  intros c lo n r L H. exists (rep n c). unfold many_ge.
  assert (G : forall n lo hi, lo <= n -> n < hi -> many_m_n lo hi (char_ c) (rep n c ++ r) = Ok r (rep n c)).
  { clear lo n L. induction n as [|n IH]; intros lo hi L Hh; (destruct hi as [|hi]; [lia|]); cbn [rep repeat app many_m_n].
    - rewrite char_head by exact H. destruct lo; [reflexivity|lia].
    - rewrite char_same. match goal with |- context [(?a =? ?b)] => destruct (Nat.eqb_spec a b) as [Y|_]; [cbn [List.length] in Y; lia|] end.
      fold (rep n c). rewrite IH by lia. reflexivity. }
  apply G; [exact L|]. unfold rep. autorewrite with lens. lia.
Qed.
(** the run of spaces in front of a line *)
Lemma spaces_split : forall l : str, exists a t, l = rep a c_sp ++ t /\ no_space t.
Proof.
  induction l as [|c l IH]; [exists 0, []; split; [reflexivity|intros t E; discriminate]|]. destruct (N.eqb_spec c c_sp) as [->|H].
  - destruct IH as (a & t & -> & N). exists (S a), t. now split.
  - exists 0, (c :: l). split; [reflexivity|now apply no_space_cons].
Qed.
Lemma up3_any : forall a s, no_space s -> up_to_3_spaces (rep a c_sp ++ s) = Ok (rep (a - 3) c_sp ++ s) (rep (Nat.min a 3) c_sp).
Proof.
  intros a s H. destruct (Nat.le_gt_cases a 3) as [L|L].
  - rewrite up3 by assumption. replace (a - 3) with 0 by lia. now replace (Nat.min a 3) with a by lia.
  - replace (Nat.min a 3) with 3 by lia. replace (rep a c_sp ++ s) with (rep 3 c_sp ++ rep (a - 3) c_sp ++ s).
    + unfold up_to_3_spaces. apply many_spaces; [lia|now right].
    + rewrite app_assoc. unfold rep. rewrite <- repeat_app. now replace (3 + (a - 3)) with a by lia.
Qed.
Lemma pair_ok : forall A B (p : parser A) (q : parser B) s r a r2 b, p s = Ok r a -> q r = Ok r2 b -> pair_ p q s = Ok r2 (a, b).
Proof. intros A B p q s r a r2 b E1 E2. unfold pair_, bind. rewrite E1. unfold pmap, bind. now rewrite E2. Qed.
Lemma pair_e2 : forall A B (p : parser A) (q : parser B) s r a, p s = Ok r a -> q r = Err -> pair_ p q s = Err.
Proof. intros A B p q s r a E1 E2. unfold pair_, bind. rewrite E1. unfold pmap, bind. now rewrite E2. Qed.
Lemma pair_e1 : forall A B (p : parser A) (q : parser B) s, p s = Err -> pair_ p q s = Err.
Proof. intros A B p q s E1. unfold pair_. now apply bind_e. Qed.
Section Fence.
  Variables (c : char) (n : nat).
  Hypothesis Hc : fence_char c.
  Hypothesis Hn : 3 <= n.
  Lemma hd_fence : hd 0%N (rep n c) = c.
  Proof. destruct n; [lia|reflexivity]. Qed.
  Lemma fence_ends : forall a m r, a <= 3 -> n <= m -> stops r -> p_ending_fence (rep n c) (rep a c_sp ++ rep m c ++ r) = Ok (tl r) tt.
  Proof.
    intros a m r Ha Hm Hr. unfold p_ending_fence, p_unit, value. pose proof (stops_head c r Hc Hr) as Hh.
    assert (E : exists x, pair_ up_to_3_spaces (pair_ (Nom.tag (rep n c)) (many0 (char_ (hd 0%N (rep n c))))) (rep a c_sp ++ rep m c ++ r) = Ok r x).
    { rewrite hd_fence. destruct (tag_run c n m r Hh) as (x & X). destruct (Nat.leb_spec n m); [|lia].
      eexists. eapply pair_ok; [apply up3; [exact Ha|]|eapply pair_ok; [exact X|apply many0_run; exact Hh]].
      destruct m as [|m']; [lia|]. apply no_space_cons. now apply fence_sp. }
    destruct E as (x & E). exact (pmap_ok _ _ (fun _ => tt) _ _ _ _ (lt_stop _ _ _ _ _ E Hr)).
  Qed.
  Lemma fence_open : forall l r, Forall line_char l -> ~ closes_fence c n l -> p_ending_fence (rep n c) (l ++ c_nl :: r) = Err.
  Proof.
    intros l r Hl Hx. unfold p_ending_fence, p_unit. apply unit_e. destruct (spaces_split l) as (a & t & -> & N).
    rewrite <- app_assoc.
    assert (N2 : no_space (t ++ c_nl :: r)) by (destruct t; [now apply no_space_cons|intros y E; injection E as -> _; now apply (N t)]).
    pose proof (up3_any a _ N2) as U. rewrite hd_fence.
    destruct (Nat.le_gt_cases a 3) as [L|L].
    2:{ apply lt_err. eapply pair_e2; [exact U|]. apply pair_e1. destruct (a - 3) as [|b] eqn:B; [lia|].
        change (rep (S b) c_sp ++ t ++ c_nl :: r) with (rep 0 c ++ c_sp :: rep b c_sp ++ t ++ c_nl :: r).
        destruct (tag_run c n 0 (c_sp :: rep b c_sp ++ t ++ c_nl :: r)) as (x & ->); [intro E; symmetry in E; now apply (fence_sp c)|].
        destruct (Nat.leb_spec n 0); [lia|reflexivity]. }
    replace (a - 3) with 0 in U by lia. change (rep 0 c_sp ++ ?y) with y in U.
    apply Forall_app in Hl as [_ Hl].
    assert (K : exists m d u, (line_char d \/ m < n) /\ d <> c /\ t ++ c_nl :: r = rep m c ++ d :: u).
    { destruct (run_split c t) as [(m & ->)|(m & d & u & -> & Hd)].
      - exists m, c_nl, r. split; [|split; [intro E; symmetry in E; now apply (fence_nl c)|reflexivity]]. right.
        destruct (Nat.lt_ge_cases m n) as [|Y]; [assumption|]. exfalso. apply Hx. exists a, m. now repeat split.
      - exists m, d, (u ++ c_nl :: r). split; [left|split; [exact Hd|now rewrite <- app_assoc]].
        rewrite Forall_forall in Hl. apply Hl. apply in_or_app. right. now left. }
    destruct K as (m & d & u & Hd & Hdc & E). rewrite E in *.
    destruct (tag_run c n m (d :: u) Hdc) as (x & X). destruct (Nat.leb_spec n m).
    - destruct Hd as [Hd|Hd]; [|lia]. eapply lt_char; [eapply pair_ok; [exact U|eapply pair_ok; [exact X|apply many0_run; exact Hdc]]|exact Hd].
    - apply lt_err. eapply pair_e2; [exact U|]. now apply pair_e1.
  Qed.
End Fence.
Lemma recognize_app : forall A (p : parser A) a r x, p (a ++ r) = Ok r x -> recognize p (a ++ r) = Ok r a.
Proof. intros A p a r x E. eapply recognize_ok. exact E. Qed.
Definition info_ok (c : char) (info : str) : Prop := Forall line_char info /\ not_head c info.
Definition info_of (info : str) : option str := match info with [] => None | _ => Some info end.
Lemma not_eol1_stop : forall r, stops r -> not_eof_or_eol1 r = Err.
Proof.
  intros r Hr. unfold not_eof_or_eol1, recognize. unfold many1. rewrite bind_e; [reflexivity|].
  destruct (eol_stop r Hr) as (a & E). unfold preceded, bind, not_. now rewrite E.
Qed.
Lemma closes_spaces : forall c n k l, fence_char c -> 3 <= n -> ~ closes_fence c n l -> ~ closes_fence c n (rep k c_sp ++ l).
Proof.
  intros c n k l Hc Hn Hx (a & m & Ha & Hm & E). apply Hx. exists (a - k), m. split; [lia|]. split; [exact Hm|].
  destruct (Nat.le_gt_cases k a) as [L|L].
  - replace a with (k + (a - k)) in E at 1 by lia. unfold rep in *. rewrite repeat_app, <- app_assoc in E. now apply app_inv_head in E.
  - exfalso. replace k with (a + (k - a)) in E by lia. unfold rep in *. rewrite repeat_app, <- app_assoc in E. apply app_inv_head in E.
    destruct (k - a) as [|j] eqn:J; [lia|]. destruct m as [|m]; [lia|]. cbn in E. injection E as E _. symmetry in E. now apply (fence_sp c).
Qed.
Lemma fence_reads : forall k c n info ls a m r, k <= 3 -> fence_char c -> 3 <= n -> info_ok c info ->
  Forall (Forall line_char) ls -> Forall (fun l => ~ closes_fence c n l) ls -> a <= 3 -> n <= m -> stops r ->
  p_code_block_fenced (rep k c_sp ++ rep n c ++ info ++ c_nl :: flat_map (fun l => rep k c_sp ++ l ++ [c_nl]) ls ++ rep a c_sp ++ rep m c ++ r)
  = Ok (tl r) (CodeBlock (Fenced (info_of info)) (join [c_nl] ls)).
Proof.
  intros k c n info ls a m r Hk Hc Hn [Hi1 Hi2] Hl Hx Ha Hm Hr. unfold p_code_block_fenced.
  set (body := flat_map (fun l => rep k c_sp ++ l ++ [c_nl]) ls ++ rep a c_sp ++ rep m c ++ r).
  assert (Hsp : no_space (rep n c ++ info ++ c_nl :: body)) by (destruct n; [lia|]; apply no_space_cons; now apply fence_sp).
  unfold bind at 1. rewrite (up3 k _ Hk Hsp). replace (len (rep k c_sp)) with k by (unfold rep; now rewrite repeat_length).
  assert (Hh : not_head c (info ++ c_nl :: body)).
  { destruct info; [cbn; intro E; symmetry in E; now apply (fence_nl c)|exact Hi2]. }
  assert (F : recognize (alt [many_ge 3 (char_ backtick); many_ge 3 (chr "~")]) (rep n c ++ info ++ c_nl :: body) = Ok (info ++ c_nl :: body) (rep n c)).
  { assert (A : exists x, alt [many_ge 3 (char_ backtick); many_ge 3 (chr "~")] (rep n c ++ info ++ c_nl :: body) = Ok (info ++ c_nl :: body) x).
    { destruct (many_ge_run c 3 n _ Hn Hh) as (x & X). exists x. destruct Hc as [->| ->]; [apply or_ok; exact X|]. cbn [alt]. rewrite or_e; [exact X|].
      unfold many_ge. rewrite Nat.add_comm. cbn [plus many_m_n]. destruct n; [lia|]. cbn [rep repeat app]. rewrite char_ne by discriminate. reflexivity. }
    destruct A as (x & A). eapply recognize_app. exact A. }
  assert (O : opt (recognize not_eof_or_eol1) (info ++ c_nl :: body) = Ok (c_nl :: body) (info_of info)).
  { unfold opt. destruct info as [|i info].
    - cbn [app]. unfold recognize. rewrite not_eol1_stop by reflexivity. reflexivity.
    - erewrite recognize_app; [reflexivity|]. apply not_eol1_line; [discriminate|exact Hi1|reflexivity]. }
  unfold bind at 1. erewrite lt_stop; [|eapply pair_ok; [exact F|exact O]|reflexivity]. cbn [tl].
  unfold bind at 1.
  assert (E : p_ending_fence (rep n c) (rep a c_sp ++ rep m c ++ r) = Ok (tl r) tt) by (apply fence_ends; assumption).
  assert (M : many0 (preceded (peek (not_ (p_ending_fence (rep n c)))) (preceded (many_m_n 0 k (chr " ")) (line_terminated not_eof_or_eol0))) body
    = Ok (rep a c_sp ++ rep m c ++ r) (map (fun l => l) ls ++ [])).
  { unfold many0, body. apply many0_pref with (f := fun l => rep k c_sp ++ l ++ [c_nl]) (g := fun l : str => l).
    - intros l t I. rewrite Forall_forall in Hl, Hx. unfold preceded at 1, bind at 1, peek, not_. rewrite <- !app_assoc. cbn [app].
      assert (X : p_ending_fence (rep n c) (rep k c_sp ++ l ++ c_nl :: t) = Err).
      { rewrite app_assoc. apply fence_open; [exact Hc|exact Hn| |now apply closes_spaces; [exact Hc|exact Hn|apply Hx]].
        apply Forall_app. split; [|now apply Hl]. apply Forall_forall. intros y Y. apply repeat_spec in Y. subst y. split; discriminate. }
      rewrite X. unfold preceded, bind. rewrite many_spaces by (lia || now right).
      apply (lt_stop _ _ _ (c_nl :: t)); [|reflexivity]. apply not_eol0_line; [now apply Hl|reflexivity].
    - intros l _ Y. apply app_eq_nil in Y as [_ Y]. now apply app_eq_nil in Y as [_ Y].
    - apply many0_end. unfold preceded at 1. apply bind_e. unfold peek, not_. now rewrite E.
    - apply Nat.lt_succ_diag_r. }
  rewrite M. unfold bind. rewrite E. rewrite map_id, app_nil_r. reflexivity.
Qed.

Section Code.
Variables (entities : str -> option str) (punct : char -> bool) (upper : char -> str).
Let cfg := default_config entities punct upper.
Local Notation rec := (block_ cfg).
Local Notation reads := (reads entities punct upper).
Local Notation reads_at := (reads_at entities punct upper).
Local Notation alts := (alts entities punct upper).
(** printed: three ticks, the info, the content, three ticks *)
Lemma alts_code : forall s r x, p_code_block s = Ok r x -> alts s = Ok r [BCodeBlock x].
Proof. intros s r x E. rewrite alts_eq. apply or_ok. now apply one_map_ok. Qed.
Lemma flat_lines : forall k s t, flat_map (fun l => rep k c_sp ++ l ++ [c_nl]) (split_lines s) ++ t = pre k s ++ c_nl :: t.
Proof.
  intros k s t. unfold pre. pose proof (split_ne s) as N. induction (split_lines s) as [|l ls IH]; [congruence|].
  destruct ls as [|l2 ls]; [cbn; now rewrite app_nil_r, <- !app_assoc|].
  change (flat_map ?f (l :: l2 :: ls)) with (f l ++ flat_map f (l2 :: ls)).
  change (map ?f (l :: l2 :: ls)) with (f l :: map f (l2 :: ls)). rewrite join_cons by discriminate.
  rewrite <- !app_assoc. rewrite IH by discriminate. reflexivity.
Qed.
Lemma reads_fenced : forall k info s, k <= 3 -> info_ok backtick info -> Forall (Forall line_char) (split_lines s) ->
  Forall (fun l => ~ closes_fence backtick 3 l) (split_lines s) ->
  reads (pre k (lit "```" ++ info ++ c_nl :: s ++ c_nl :: lit "```")) (BCodeBlock (CodeBlock (Fenced (info_of info)) s)).
Proof.
  intros k info s Hk Hi Hl Hx.
  assert (N1 : nl_free (lit "```" ++ info)).
  { intro H. apply in_app_or in H as [H|H]; [cbn in H; intuition discriminate|]. destruct Hi as [Hi _]. rewrite Forall_forall in Hi. now destruct (Hi _ H). }
  rewrite app_assoc. rewrite pre_cons by exact N1. rewrite pre_app, (pre_one k (lit "```")) by (intro H; cbn in H; intuition discriminate).
  split.
  { exists k, backtick. eexists. split; [reflexivity|repeat split; discriminate]. }
  intros r Hr. apply alts_code. unfold p_code_block.
  replace ((rep k c_sp ++ (lit "```" ++ info) ++ c_nl :: pre k s ++ c_nl :: rep k c_sp ++ lit "```") ++ r)
    with (rep k c_sp ++ rep 3 backtick ++ info ++ c_nl :: flat_map (fun l => rep k c_sp ++ l ++ [c_nl]) (split_lines s) ++ rep k c_sp ++ rep 3 backtick ++ r).
  - unfold alt. rewrite or_e.
    + rewrite (fence_reads k backtick 3 info (split_lines s) k 3 r); try assumption; try lia; [now rewrite split_join|now left|now apply blank_tail_stops].
    + change (rep 3 backtick ++ ?y) with (backtick :: backtick :: backtick :: y). apply code_indented_e; [exact Hk|repeat split; discriminate].
  - rewrite flat_lines. repeat (rewrite <- app_assoc; cbn [app]). reflexivity.
Qed.
(** printed: four spaces in front of every line *)
Lemma four_spaces : forall s, alt [p_unit (many_m_n 4 4 (chr " ")); p_unit (char_ c_tab)] (rep 4 c_sp ++ s) = Ok s tt.
Proof.
  intros s. apply or_ok. unfold p_unit, value. apply (pmap_ok _ _ (fun _ => tt) _ _ _ (rep 4 c_sp)).
  cbn [many_m_n pred rep repeat app]. unfold chr. change (ch " ") with c_sp. repeat (rewrite char_same;
      match goal with |- context [(?a =? ?b)] => destruct (Nat.eqb_spec a b) as [Y|_]; [cbn [List.length] in Y; lia|] end). reflexivity.
Qed.
Lemma reads_indented : forall w j m s, j <= 3 -> Forall (Forall line_char) (split_lines s) -> starts_line s ->
  reads_at w j m (pre 4 s) (BCodeBlock (CodeBlock Indented s)).
Proof.
  intros w j m s Hj Hl Hs. apply reads_at_tl. split.
  { destruct Hs as (k & c & t & -> & Hc). unfold pre.
    assert (X : exists l ls, split_lines (rep k c_sp ++ c :: t) = (rep k c_sp ++ c :: l) :: ls).
    { assert (Y : exists l ls, split_lines (c :: t) = (c :: l) :: ls).
      { cbn [split_lines]. destruct (N.eqb_spec c c_nl) as [->|_]; [destruct Hc as [[H _] _]; congruence|]. destruct (split_lines t) as [|l ls]; eexists _, _; reflexivity. }
      destruct Y as (l & ls & Y). exists l, ls. clear -Y. induction k as [|k IH]; [exact Y|]. cbn [rep repeat app split_lines]. fold (rep k c_sp).
      change (N.eqb c_sp c_nl) with false. cbv iota. now rewrite IH. }
    destruct X as (l & ls & ->). cbn [map]. rewrite join_flat. exists (4 + k), c. eexists. split; [|exact Hc].
    rewrite <- app_assoc. unfold rep. rewrite repeat_app. rewrite <- !app_assoc. reflexivity. }
  intros r Hr0. assert (Hr1 : r = [] \/ exists k t, k <= 3 /\ r = c_nl :: rep k c_sp ++ c_nl :: t).
  { destruct Hr0 as [->|(u & _ & _ & ->)]; [now left|right]. exists j, u. split; [exact Hj|]. unfold sepk. cbn [app]. now rewrite <- app_assoc. }
  assert (Hr : blank_tail r) by (destruct Hr1 as [->|(k & t & _ & ->)]; [now left|right; now exists k, t]).
  apply alts_code. unfold p_code_block. apply or_ok. unfold p_code_block_indented, bind.
  set (p := preceded (alt [p_unit (many_m_n 4 4 (chr " ")); p_unit (char_ c_tab)]) (line_terminated not_eof_or_eol0)).
  assert (P1 : forall l t, Forall line_char l -> stops t -> p (rep 4 c_sp ++ l ++ t) = Ok (tl t) l).
  { intros l t F St. unfold p, preceded, bind. rewrite four_spaces. apply (lt_stop _ _ _ t); [now apply not_eol0_line|exact St]. }
  assert (P2 : p (tl r) = Err).
  { unfold p, preceded. apply bind_e. destruct Hr1 as [->|(k & t & L & ->)]; [reflexivity|]. cbn [tl].
    apply alt_err. apply Forall_cons1; [|apply Forall_cons1; [|constructor]]; apply unit_e.
    - assert (X : chr " " (c_nl :: t) = Err) by reflexivity.
      destruct k as [|[|[|[|k']]]]; [| | | |lia]; cbn [rep repeat app many_m_n pred];
        repeat (rewrite sp_char; match goal with |- context [(?a =? ?b)] => destruct (Nat.eqb_spec a b) as [Y|_]; [cbn [List.length] in Y; lia|] end);
        rewrite X; reflexivity.
    - destruct k as [|k]; cbn [rep repeat app]; apply char_ne; discriminate. }
  assert (M : many1 p (pre 4 s ++ r) = Ok (tl r) (split_lines s)).
  { unfold pre. pose proof (split_ne s) as N.
    assert (G : forall ls n, Forall (Forall line_char) ls -> ls <> [] -> len (join [c_nl] (map (app (rep 4 c_sp)) ls) ++ r) < n ->
              many0_go n p (join [c_nl] (map (app (rep 4 c_sp)) ls) ++ r) = Ok (tl r) ls).
    { clear Hl Hs N. induction ls as [|l ls IH]; intros n F Ne Hn; [congruence|]. inversion F; subst. destruct n as [|n]; [lia|]. cbn [many0_go].
      destruct ls as [|l2 ls].
      - cbn [map join] in *. rewrite <- app_assoc in *. rewrite P1 by (assumption || now apply blank_tail_stops).
        assert (L : len (tl r) <= len r) by (destruct r; cbn; lia).
        assert (L2 : len (tl r) < len (rep 4 c_sp ++ l ++ r)) by (rewrite !app_length; unfold rep; rewrite repeat_length; unfold str, char in *; lia).
        destruct (Nat.eqb_spec (len (tl r)) (len (rep 4 c_sp ++ l ++ r))) as [Y|_]; [unfold str, char in *; lia|].
        rewrite (many0_end _ _ _ P2) by (unfold str, char in *; lia). reflexivity.
      - cbn [map] in *. rewrite join_cons in * by discriminate. rewrite <- !app_assoc in *. rewrite P1 by (assumption || reflexivity). cbn [tl app].
        change ([c_nl] ++ ?y) with (c_nl :: y) in *.
        match goal with |- context [(?a =? ?b)] => destruct (Nat.eqb_spec a b) as [Y|_] end.
        { exfalso. revert Y. cbn [rep repeat app]. autorewrite with lens. intro Y. lia. }
        rewrite IH; [reflexivity|assumption|discriminate|]. revert Hn. autorewrite with lens. cbn [map]. lia. }
    destruct (split_lines s) as [|l ls]; [congruence|]. inversion Hl; subst. unfold many1, bind. destruct ls as [|l2 ls].
    - cbn [map join]. rewrite <- app_assoc. rewrite P1 by (assumption || now apply blank_tail_stops). unfold pmap, bind, many0.
      rewrite (many0_end _ _ _ P2) by lia. reflexivity.
    - cbn [map]. rewrite join_cons by discriminate. rewrite <- !app_assoc. rewrite P1 by (assumption || reflexivity). cbn [tl app]. unfold pmap, bind, many0.
      change ((rep 4 c_sp ++ l2) :: map (app (rep 4 c_sp)) ls) with (map (app (rep 4 c_sp)) (l2 :: ls)).
      rewrite G; [reflexivity|assumption|discriminate|lia]. }
  rewrite M. unfold ret. now rewrite split_join.
Qed.

(** ** Quotes *)
Definition quoted (o : str) : str := join [c_nl] (map (app (lit "> ")) (split_lines o)).
Definition no_alert (l : str) : Prop := parse_alert_marker cfg (trim l) = None.
Lemma quoted_lines : forall k o, Forall (Forall line_char) (split_lines o) ->
  Forall nl_free (map (app (lit "> ")) (split_lines o)) /\ pre k (quoted o) = join [c_nl] (map (fun l => rep k c_sp ++ ch ">" :: c_sp :: l) (split_lines o)).
Proof.
  intros k o H.
  assert (F : Forall nl_free (map (app (lit "> ")) (split_lines o))).
  { apply Forall_map. apply Forall_forall. intros l I. rewrite Forall_forall in H. intros [E|[E|E]]; [discriminate|discriminate|].
    specialize (H l I). rewrite Forall_forall in H. now destruct (H _ E). }
  split; [exact F|]. unfold pre, quoted. rewrite join_split; [|intro E; apply map_eq_nil in E; now apply split_ne in E|exact F].
  now rewrite map_map.
Qed.
Lemma quote_lines_reads : forall k ls r, k <= 3 -> ls <> [] -> Forall (Forall line_char) ls -> blank_tail r ->
  p_quote_lines (join [c_nl] (map (fun l => rep k c_sp ++ ch ">" :: c_sp :: l) ls) ++ r) = Ok (tl r) (map (cons c_sp) ls).
Proof.
  intros k ls r Hk Hne Hl Hr. unfold p_quote_lines. set (p := preceded p_quote_prefix (line_terminated not_eof_or_eol0)).
  assert (P1 : forall l t, Forall line_char l -> stops t -> p ((rep k c_sp ++ ch ">" :: c_sp :: l) ++ t) = Ok (tl t) (c_sp :: l)).
  { intros l t F St. unfold p, p_quote_prefix, preceded, bind. rewrite <- app_assoc. cbn [app]. rewrite up3 by (exact Hk || now apply no_space_cons).
    unfold chr. rewrite char_same. apply (lt_stop _ _ _ t); [|exact St]. apply (not_eol0_line (c_sp :: l)); [|exact St]. constructor; [split; discriminate|exact F]. }
  assert (P2 : p (tl r) = Err).
  { unfold p, preceded at 1. apply bind_e. unfold p_quote_prefix, preceded, bind. destruct (blank_up3 r Hr) as (s & x & -> & S). apply blank_chr; [exact S|discriminate|discriminate]. }
  assert (G : forall ls n, Forall (Forall line_char) ls -> ls <> [] -> len (join [c_nl] (map (fun l => rep k c_sp ++ ch ">" :: c_sp :: l) ls) ++ r) < n ->
            many0_go n p (join [c_nl] (map (fun l => rep k c_sp ++ ch ">" :: c_sp :: l) ls) ++ r) = Ok (tl r) (map (cons c_sp) ls)).
  { clear ls Hl Hne. induction ls as [|l ls IH]; intros n F Ne Hn; [congruence|]. inversion F; subst. destruct n as [|n]; [lia|]. cbn [many0_go].
    destruct ls as [|l2 ls].
    - cbn [map join] in *. rewrite P1 by (assumption || now apply blank_tail_stops).
      assert (L : len (tl r) <= len r) by (destruct r; cbn; lia).
      match goal with |- context [(?a =? ?b)] => destruct (Nat.eqb_spec a b) as [Y|_] end.
      { exfalso. revert Y. autorewrite with lens. unfold str, char in *. intro Y. lia. }
      rewrite (many0_end _ _ _ P2); [reflexivity|]. revert Hn. autorewrite with lens. unfold str, char in *. intro Y. lia.
    - cbn [map] in *. rewrite join_cons in * by discriminate. rewrite <- (app_assoc _ ([c_nl] ++ _)) in *. rewrite P1 by (assumption || reflexivity). cbn [tl app].
      match goal with |- context [(?a =? ?b)] => destruct (Nat.eqb_spec a b) as [Y|_] end.
      { exfalso. revert Y. autorewrite with lens. intro Y. lia. }
      rewrite IH; [reflexivity|assumption|discriminate|]. revert Hn. autorewrite with lens. cbn [map]. lia. }
  destruct ls as [|l ls]; [congruence|]. inversion Hl; subst. unfold many1, bind. destruct ls as [|l2 ls].
  - cbn [map join]. rewrite P1 by (assumption || now apply blank_tail_stops). unfold pmap, bind, many0.
    rewrite (many0_end _ _ _ P2) by lia. reflexivity.
  - cbn [map]. rewrite join_cons by discriminate. rewrite <- (app_assoc _ ([c_nl] ++ _)). rewrite P1 by (assumption || reflexivity). cbn [tl app]. unfold pmap, bind, many0.
    change ((rep k c_sp ++ ch ">" :: c_sp :: l2) :: map (fun l => rep k c_sp ++ ch ">" :: c_sp :: l) ls) with (map (fun l => rep k c_sp ++ ch ">" :: c_sp :: l) (l2 :: ls)).
    rewrite G; [reflexivity|assumption|discriminate|lia].
Qed.
Lemma pre_blocks : forall k os, os <> [] -> pre k (join [c_nl; c_nl] os) = join (sepk k) (map (pre k) os).
Proof.
  intros k os H. induction os as [|o os IH]; [congruence|]. destruct os as [|o2 os]; [reflexivity|].
  rewrite (join_cons _ o (o2 :: os)) by discriminate. change (map (pre k) (o :: o2 :: os)) with (pre k o :: map (pre k) (o2 :: os)).
  rewrite (join_cons _ (pre k o)) by discriminate. cbn [app]. rewrite pre_app.
  change (c_nl :: join [c_nl; c_nl] (o2 :: os)) with ([] ++ c_nl :: join [c_nl; c_nl] (o2 :: os)). rewrite pre_app, IH by discriminate.
  unfold sepk. rewrite (pre_one k []) by (unfold nl_free; cbn; tauto). rewrite app_nil_r. cbn [app]. now rewrite <- app_assoc.
Qed.
Lemma reads_quote : forall k w m os bs, k <= 3 -> os <> [] -> Forall2 (reads_at w 1 m) (map (pre 1) os) bs -> linked w 1 m bs (map (pre 1) os) ->
  Forall (Forall line_char) (split_lines (join [c_nl; c_nl] os)) -> no_alert (hd [] (split_lines (join [c_nl; c_nl] os))) ->
  reads (pre k (quoted (join [c_nl; c_nl] os))) (BBlockQuote bs).
Proof.
  intros k w m os bs Hk Hne Hb Hb2 Hl Ha. set (o := join [c_nl; c_nl] os) in *. destruct (quoted_lines k o Hl) as [_ ->].
  assert (Hi : inked (ch ">")) by (repeat split; discriminate).
  assert (X : forall r, exists t, join [c_nl] (map (fun l => rep k c_sp ++ ch ">" :: c_sp :: l) (split_lines o)) ++ r = rep k c_sp ++ ch ">" :: t).
  { intros r. pose proof (split_ne o). destruct (split_lines o) as [|l ls]; [congruence|]. cbn [map]. rewrite join_flat. rewrite <- !app_assoc. cbn [app]. eexists. reflexivity. }
  split. { destruct (X []) as (t & E). rewrite app_nil_r in E. exists k, (ch ">"), t. now split. }
  intros r Hr. pose proof (quote_lines_reads k (split_lines o) r Hk (split_ne o) Hl Hr) as Q. destruct (X r) as (t & E).
  assert (B : p_blockquote rec (rep k c_sp ++ ch ">" :: t) = Ok (tl r) bs).
  { unfold p_blockquote, bind. rewrite <- E, Q. change (map (cons c_sp) (split_lines o)) with (map (app (rep 1 c_sp)) (split_lines o)).
    fold (pre 1 o). unfold o. rewrite pre_blocks by exact Hne. unfold pmap, bind, nested, cfg.
    rewrite (many1_reads entities punct upper w 1 m (map (pre 1) os) bs); [|exact Hb|exact Hb2|intro Y; now apply map_eq_nil in Y]. unfold ret. f_equal.
    clear. induction bs as [|b bs IH]; [reflexivity|]. cbn. now f_equal. }
  assert (A : p_github_alert cfg rec (rep k c_sp ++ ch ">" :: t) = Err).
  { unfold p_github_alert. unfold bind at 1. unfold peek. unfold preceded at 1, bind at 1.
    assert (Y : pair_ p_quote_prefix (opt (chr " ")) (rep k c_sp ++ ch ">" :: t) = Ok (tl t) (ch ">", Some c_sp) /\
              exists r1, stops r1 /\ tl t = hd [] (split_lines o) ++ r1).
    { rewrite <- E. pose proof (split_ne o) as N. destruct (split_lines o) as [|l ls]; [congruence|]. cbn [map hd] in *. rewrite join_flat in *. rewrite <- !app_assoc in *. cbn [app] in *.
      apply app_inv_head in E. injection E as <-. cbn [tl]. split.
      - eapply pair_ok; [unfold p_quote_prefix, preceded, bind; rewrite up3 by (exact Hk || now apply no_space_cons); apply char_same|].
        unfold opt. rewrite sp_char. reflexivity.
      - eexists. split; [|reflexivity]. destruct ls; [now apply blank_tail_stops|reflexivity]. }
    destruct Y as (-> & r1 & St & ->). rewrite (lt_stop _ _ _ r1 (hd [] (split_lines o))); [| |exact St].
    - unfold no_alert in Ha. rewrite Ha. reflexivity.
    - apply not_eol0_line; [|exact St]. pose proof (split_ne o). destruct (split_lines o); [congruence|]. now inversion Hl. }
  rewrite E. rewrite alts_eq.
  rewrite or_e by (apply one_map_e; apply code_block_e; (assumption || discriminate)).
  rewrite or_e by (apply one_map_e; apply heading_e; try assumption; left; discriminate).
  rewrite or_e.
  2:{ apply one_e. apply no_paragraph; [exact Hi|]. do 3 apply Exists_cons_tl. apply Exists_cons_hd. exists (tl r), tt.
      cbn [conditional_unit default_config b_blockquote]. unfold p_unit, value, pmap, bind, ret. fold cfg. now rewrite B. }
  rewrite or_e by (apply one_e; apply pmap_e; apply thematic_e; (assumption || discriminate)).
  unfold tail_alts. fold cfg. rewrite or_e by exact A. apply or_ok. now apply one_map_ok.
Qed.
End Code.
