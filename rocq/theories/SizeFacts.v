(** C99: the size of a document against the length of its source. *)
From Coq Require Import String Lia.
From Verif Require Import SpecInline SpecBlock SpecSize ShapeFacts SpecLoss CharFacts.
Import ListNotations.
Open Scope list_scope.

Notation len := (@List.length char).
Ltac lens := unfold char, str, rep in *; repeat (progress (rewrite ?app_length, ?repeat_length in *; cbn [List.length lit Ascii.N_of_ascii list_ascii_of_string map app] in *)).

(** ** Sizes *)
Lemma total_app : forall a b, total (a ++ b) = total a + total b.
Proof. intros a b. unfold total. induction a as [|x a IH]; cbn in *; lia. Qed.
Lemma inlines_app : forall a b, inlines_size (a ++ b) = inlines_size a + inlines_size b.
Proof. intros. unfold inlines_size. now rewrite map_app, total_app. Qed.
Lemma blocks_app : forall a b, blocks_size (a ++ b) = blocks_size a + blocks_size b.
Proof. intros. unfold blocks_size. now rewrite map_app, total_app. Qed.
Lemma joins_size : forall l l', joins_to l l' -> inlines_size l' <= inlines_size l.
Proof.
  intros l l' J. induction J as [|l m n [a s t b] J IH]; [lia|]. etransitivity; [exact IH|]. rewrite !inlines_app. unfold inlines_size. cbn [map total fold_right inline_size]. rewrite app_length. unfold str, char. lia.
Qed.

(** ** Lengths *)
Lemma n_end : forall m r, line_end m r -> len r <= len m /\ (m = [] \/ len r < len m).
Proof. intros m r H. destruct H as [e r [-> | ->]|]; lens; split; try lia; auto; right; lia. Qed.
Lemma n_label : forall raw t, label_text raw t -> len t <= len raw.
Proof. intros raw t H. induction H; lens; lia. Qed.
Lemma n_bracket : forall s t r, bracket_at s t r -> len t + 2 + len r <= len s.
Proof. intros s t r (raw & -> & H & _). apply n_label in H. lens. lia. Qed.
Lemma n_angle : forall a b, angle_text a b -> len b <= len a.
Proof. intros a b H. induction H; lens; lia. Qed.
Lemma n_destination : forall s d r, destination_at s d r -> len d + len r <= len s.
Proof. intros s d r H. destruct H as [raw d r H|d r _ _ _|d _]; [apply n_angle in H|..]; lens; lia. Qed.
Lemma n_title : forall c a b, title_text c a b -> len b <= len a.
Proof. intros c a b H. induction H; lens; lia. Qed.
Lemma n_title_at : forall s t r, title_at s t r -> len t + 2 + len r <= len s.
Proof. intros s t r (o & c & raw & _ & T & ->). apply n_title in T. lens. lia. Qed.
Lemma n_tail : forall s x r, link_tail_at s x r -> len (fst x) + text_size (snd x) + 2 + len r <= len s.
Proof.
  intros s [d t] r (w1 & s1 & s2 & s3 & w3 & -> & _ & D & T & -> & _). cbn [fst snd] in *. apply n_destination in D. lens.
  destruct T as [[-> <-]|(w2 & m & t' & -> & -> & _ & T)]; cbn [text_size]; [|apply n_title_at in T]; lens; lia.
Qed.
Lemma n_norm : forall a b, code_norm a b -> len b <= len a.
Proof. intros a b H. induction H; lens; lia. Qed.
Lemma n_content : forall a b, code_content a b -> len b <= len a.
Proof. intros a b (t & N & [[-> _]|[-> _]]); apply n_norm in N; lens; lia. Qed.

Section Size.
  Variable cfg : config.
  Hypothesis Hu : no_user_code cfg.
  Hypothesis Ht : small_tables cfg.
  Lemma n_run : forall s v r, run_of cfg s v r -> len v + len r <= len s.
  Proof. intros s v r H. induction H; lens; lia. Qed.
  Lemma n_entity : forall s v r, entity_at (html_entities cfg) s v r -> 1 + len v + len r <= 1 + len s /\ 1 + len r <= len s.
  Proof. intros s v r H. destruct H as [n v r _ _ E|ds v r _ _|x hs v r _ _ _]; [apply (proj1 Ht) in E|..]; lens; split; lia. Qed.
  Lemma n_chunk : forall s v r, chunk cfg s v r -> len v + len r <= len s /\ 1 + len r <= len s.
  Proof.
    intros s v r [E|[[_ E]|[_ [_ [N E]]]]].
    - destruct E. lens. lia.
    - apply n_entity in E. lia.
    - apply n_run in E. destruct v; [congruence|]. lens. lia.
  Qed.
  Lemma n_chunks : forall s l r, chunks cfg s l r -> len (concat l) + len r <= len s /\ (l <> [] -> 1 + len r <= len s).
  Proof.
    intros s l r H. induction H as [|s v m l r C _ IH]; [split; [cbn; lia|congruence]|]. apply n_chunk in C. cbn [concat]. lens. split; intros; lia.
  Qed.
  Definition piece_len (p : piece) : nat :=
    match p with
    | PAutolink u => len u + 2
    | PLink text d t => len text + len d + text_size t + 4
    | PFootnote l => len l + 3
    | PReference text None => len text + 2
    | PReference text (Some label) => len text + len label + 4
    | PBreak => 1
    | PImage d t a => len d + text_size t + len a + 5
    | PCode c => len c + 2
    | PWord w => Nat.max 1 (len w)
    | PEmph n text => 2 * n + len text
    | PStrike text => len text + 4
    | PText t => Nat.max 1 (len t)
    | PCustom _ => 0
    end.
  Lemma n_piece : forall s p r, first_of (inline_rules cfg) s p r ->
    piece_len p + len r <= len s /\ 1 <= piece_len p /\ behavior_of cfg p <> Ignore /\ plain_behavior (behavior_of cfg p) /\ forall l, p <> PCustom l.
  Proof.
    intros s p r H. apply first_in in H as (R & I & H). unfold inline_rules, element_rules in I. cbn [app In] in I.
    pose proof Hu as (K & _ & CI & _). repeat (apply Forall_cons_iff in K; destruct K as [? K]). clear K.
    repeat (destruct I as [<-|I]; [unfold on in H; try match type of H with _ /\ _ => destruct H as [? H] end|]); try contradiction;
      (cut (piece_len p + len r <= len s /\ 1 <= piece_len p); [intros [G1 G2]; split; [exact G1|]; split; [exact G2|]; split; [inversion H; subst; cbn [behavior_of]; try assumption; try discriminate; try congruence|split; [inversion H; subst; cbn [behavior_of]; try assumption; exact I|intros ? ->; inversion H; subst; congruence]]|]).
    - destruct H as [s u r [-> _]]. cbn [piece_len]. lens. lia.
    - destruct H as [s text m d t r B T]. apply n_bracket in B. apply n_tail in T. cbn [fst snd piece_len] in *. lia.
    - destruct H as [l r _ _]. cbn [piece_len]. lens. lia.
    - destruct H as [s text m label r B T|s text r B|s text r B _ _]; apply n_bracket in B; cbn [piece_len].
      + apply n_bracket in T. lia.
      + lens. lia.
      + lia.
    - destruct H as [e r E|n e r N E]; cbn [piece_len]; lens; lia.
    - destruct H as [a d t m r _ T]. apply n_tail in T. cbn [fst snd piece_len] in *. lens. lia.
    - destruct H as [n raw s c r (-> & N & _) C]. apply n_content in C. cbn [piece_len]. unfold ticks. lens. lia.
    - destruct H. cbn [piece_len]. lens. lia.
    - destruct H as [m n s text r I Hn D _]. destruct D as (m' & -> & _). cbn [piece_len]. lens. lia.
    - destruct H as [text r _ _ _]. cbn [piece_len]. lens. lia.
    - destruct H. congruence.
    - destruct H as [s l r N C]. apply n_chunks in C as [C1 C2]. specialize (C2 N). cbn [piece_len]. lia.
  Qed.

  (** ** Inlines: [F n] bounds the size of what [n] characters are read as *)
  Variable F : nat -> nat.
  Hypothesis F_add : forall a b, F a + F b <= F (a + b).
  Hypothesis F_one : 2 <= F 1.
  Hypothesis F_ref : i_reference_link cfg <> Parse \/ forall n, 1 + 2 * F n <= F (n + 2).
  Lemma F_two : forall n, 2 * n <= F n.
  Proof. induction n as [|n IH]; [lia|]. pose proof (F_add 1 n). change (1 + n) with (S n) in *. lia. Qed.
  Lemma F_mono : forall a b, a <= b -> F a <= F b.
  Proof. intros a b H. pose proof (F_add a (b - a)). replace (a + (b - a)) with b in * by lia. lia. Qed.
  Lemma F_more : forall a n, F a + 2 * n <= F (a + n).
  Proof. intros a n. pose proof (F_add a n). pose proof (F_two n). lia. Qed.
  Lemma inline_bound :
    (forall p i, builds cfg p i -> behavior_of cfg p = Parse -> inline_size i <= F (piece_len p)) /\
    (forall p o, yields cfg p o -> behavior_of cfg p <> Ignore -> plain_behavior (behavior_of cfg p) -> 1 <= piece_len p -> (forall l, p <> PCustom l) -> inlines_size o <= F (piece_len p)) /\
    (forall s l, pieces cfg s l -> inlines_size l <= F (len s)) /\
    (forall s l, reads cfg s l -> inlines_size l <= F (len s)).
  Proof.
    apply inline_mut; cbn [piece_len inline_size behavior_of]; fold inlines_size.
    - intros u _. pose proof (F_two (len u + 2)). lia.
    - intros text d t c _ IH _. fold (inlines_size c). pose proof (F_more (len text) (len d + text_size t + 4)). rewrite !Nat.add_assoc in *. lia.
    - intros l _. pose proof (F_two (len l + 3)). lia.
    - intros text label a b _ IA _ IB _. fold (inlines_size a). fold (inlines_size b). pose proof (F_add (len text) (len label)). pose proof (F_more (len text + len label) 4). lia.
    - intros text a _ IA HP. fold (inlines_size a). destruct F_ref as [N|HR]; [contradiction|]. specialize (HR (len text)). lia.
    - intros _. lia.
    - intros d t a _. pose proof (F_two (len d + text_size t + len a + 5)). lia.
    - intros c _. pose proof (F_two (len c + 2)). lia.
    - intros w _. pose proof (F_two (Nat.max 1 (len w))). unfold char, str in *. lia.
    - intros text c _ IH _. fold (inlines_size c). pose proof (F_more (len text) 2). replace (2 * 1 + len text) with (len text + 2) by lia. lia.
    - intros text c _ IH _. fold (inlines_size c). pose proof (F_more (len text) 4). replace (2 * 2 + len text) with (len text + 4) by lia. lia.
    - intros text c _ IH _. cbn [map total fold_right]. fold (inlines_size c). unfold inline_size; fold inline_size; fold (inlines_size c). pose proof (F_more (len text) 6). replace (2 * 3 + len text) with (len text + 6) by lia. lia.
    - intros text c _ IH _. fold (inlines_size c). pose proof (F_more (len text) 4). lia.
    - intros t _. pose proof (F_two (Nat.max 1 (len t))). unfold char, str in *. lia.
    - intros p i _ IH N P L _. pose proof (F_two (piece_len p)). destruct (behavior_of cfg p) eqn:E; try contradiction; cbn [outcome inlines_size map total fold_right]; unfold inlines_size; cbn [map total fold_right].
      + specialize (IH eq_refl). lia.
      + cbn [inline_size]. lia.
    - intros l _ _ _ H. now elim (H l).
    - unfold inlines_size. cbn. lia.
    - intros s p r o l H _ IY _ IH. apply n_piece in H as (H1 & H2 & H3 & H4 & H5). specialize (IY H3 H4 H2 H5). rewrite inlines_app. pose proof (F_add (piece_len p) (len r)). pose proof (F_mono _ _ H1). lia.
    - intros s l l' _ IH J _. apply joins_size in J. lia.
  Qed.
  Lemma reads_bound : forall s l, reads cfg s l -> inlines_size l <= F (len s).
  Proof. apply inline_bound. Qed.

  (** ** Lines *)
  Lemma n_plain_line : forall s v r, plain_line s v r -> len v + 1 + len r <= len s \/ (len v + len r <= len s /\ r = []).
  Proof. intros s v r (m & -> & _ & _ & E). lens. destruct E as [e r [-> | ->]|]; lens; [left; lia..|right; split; [lia|reflexivity]]. Qed.
  Lemma n_text_line : forall s v r, text_line s v r -> (len v + 1 + len r <= len s \/ (len v + len r <= len s /\ r = [])) /\ 1 <= len v.
  Proof. intros s v r (m & -> & N & _ & E & _). split; [|destruct v; [congruence|cbn; lia]]. lens. destruct E as [e r [-> | ->]|]; lens; [left; lia..|right; split; [lia|reflexivity]]. Qed.
  Lemma n_strip : forall k s m, strip k s m -> len m <= len s.
  Proof. intros k s m (j & -> & _). lens. lia. Qed.
  Definition lineish (e : nat) (R : rule str) : Prop := forall s v r, R s v r ->
    len v + e + 1 + len r <= len s \/ (len v + e + len r <= len s /\ r = [] /\ s <> []).
  Lemma lineish_nil : forall e R v r, lineish e R -> R [] v r -> False.
  Proof. intros e R v r H X. apply H in X as [X|(_ & _ & X)]; [cbn in X; lia|congruence]. Qed.
  Lemma n_lines : forall e R, lineish e R -> forall s ls r, repeated R s ls r -> ls <> [] -> len (join [c_nl] ls) + e + len r <= len s.
  Proof.
    intros e R H s ls r X. induction X as [s _|s a m l r X Y IH]; [congruence|]. intros _. pose proof (H _ _ _ X) as K. destruct l as [|b l].
    - inversion Y; subst. cbn [join]. lia.
    - specialize (IH ltac:(discriminate)). destruct K as [K|(_ & -> & _)].
      + change (join [c_nl] (a :: b :: l)) with (a ++ [c_nl] ++ join [c_nl] (b :: l)). lens. lia.
      + exfalso. inversion Y; subst. eapply lineish_nil; eassumption.
  Qed.
  Lemma n_repeated : forall A (R : rule A) (f : A -> nat), (forall s x r, R s x r -> f x + len r <= len s) ->
    forall s l r, repeated R s l r -> total (map f l) + len r <= len s.
  Proof. intros A R f H s l r X. induction X as [s _|s a m l r X _ IH]; [cbn; lia|]. apply H in X. cbn [map total fold_right] in *. fold (total (map f l)) in *. lia. Qed.
  (** lines up to something that is not the end *)
  Lemma n_inner : forall (R : rule str), (forall s v r, R s v r -> len v + 1 + len r <= len s \/ (len v + len r <= len s /\ r = [])) ->
    forall s ls r, repeated R s ls r -> r <> [] -> len (join [c_nl] ls) + len r <= len s.
  Proof.
    intros R H s ls r X. induction X as [s _|s a m l r X Y IH]; intros N; [cbn; lia|]. specialize (IH N). apply H in X as [X|[X ->]].
    - destruct l as [|b l]; [cbn [join]; cbn [join List.length] in IH; lia|]. change (join [c_nl] (a :: b :: l)) with (a ++ [c_nl] ++ join [c_nl] (b :: l)). lens. lia.
    - destruct r; [congruence|]. cbn in IH. lia.
  Qed.
  Lemma i_text_line : lineish 0 text_line.
  Proof. intros s v r H. apply n_text_line in H as [[H|[H ->]] N]; [left; lia|right]. split; [lia|]. split; [reflexivity|]. intros ->. cbn in *. lia. Qed.
  Lemma i_code_line : lineish 1 code_line.
  Proof. intros s v r (m & [-> | ->] & H); apply n_plain_line in H as [H|[H ->]]; lens; [left; lia|right; repeat split; [lia|discriminate]|left; lia|right; repeat split; [lia|discriminate]]. Qed.
  Lemma i_quote_line : lineish 1 quote_line.
  Proof.
    intros s v r (k & m & -> & _ & H). apply n_plain_line in H as [H|[H ->]]; lens; [left; lia|right]. repeat split; [lia|]. now destruct k.
  Qed.
  Lemma i_paragraph_line : lineish 0 (paragraph_line cfg).
  Proof. intros s v r (_ & m & S & H). apply n_strip in S. apply i_text_line in H as [H|(H & -> & N)]; [left; lia|right]. repeat split; [lia|]. intros ->. destruct m; [congruence|]. cbn in *. lia. Qed.
  Lemma i_footnote_line : lineish 0 footnote_line.
  Proof. intros s v r (m & -> & H). apply i_text_line in H as [H|(H & -> & N)]; lens; [left; lia|right]. repeat split; [lia|discriminate]. Qed.
  Lemma n_blanks : forall s bl r, repeated blank_line s bl r -> s = concat bl ++ r.
  Proof. intros s bl r H. induction H as [s _|s a m l r [-> _] _ IH]; [reflexivity|]. cbn [concat]. rewrite <- app_assoc. now rewrite IH. Qed.
  Lemma i_item_line : forall k n, lineish 0 (item_line k n).
  Proof.
    intros k n s v r (_ & _ & H). apply first_in in H as (R & I & H). destruct I as [<-|[<-|[]]].
    - destruct H as (m & S & H). apply n_strip in S. apply i_text_line in H as [H|(H & -> & N)]; [left; lia|right]. repeat split; [lia|]. intros ->. destruct m; [congruence|]. cbn in *. lia.
    - destruct H as (bl & m & v' & _ & B & H & ->). apply n_blanks in B. subst s. apply i_text_line in H as [H|(H & -> & N)]; lens; [left; lia|right]. repeat split; [lia|]. intros E. apply app_eq_nil in E as [_ E]. apply app_eq_nil in E as [_ E]. congruence.
  Qed.
  Lemma n_marker : forall s k r, marker_at s k r -> 1 + len r <= len s.
  Proof. intros s k r H. destruct H; lens; lia. Qed.
  Lemma n_task : forall s k r, task_at s k r -> 3 + len r <= len s.
  Proof. intros s k r H. destruct H; lens; lia. Qed.
  Lemma n_start : forall s k n t v r, item_start s (k, n, t, v) r -> len v + 2 + len r <= len s \/ (len v + 1 + len r <= len s /\ r = []).
  Proof.
    intros s k n t v r H. apply first_in in H as (R & I & H). destruct I as [<-|[<-|[<-|[]]]].
    - inversion H as [k0 s0 kind w m r0 _ M W E]; subst. apply n_marker in M. lens. destruct E as [e r [-> | ->]|]; lens; [left; lia..|right; split; [lia|reflexivity]].
    - inversion H as [k0 s0 kind j t0 m1 m r0 _ M _ T E]; subst. apply n_marker in M. apply n_task in T. lens. destruct E as [e r [-> | ->]|]; lens; [left; lia..|right; split; [lia|reflexivity]].
    - inversion H as [k0 s0 kind j m1 t0 m v0 r0 _ M _ _ T X]; subst. apply n_marker in M.
      assert (Y : len m <= len m1). { destruct T as [(x & -> & T)|(-> & -> & _)]; [apply n_task in T; lens; lia|lia]. }
      apply n_plain_line in X as [X|[X ->]]; lens; [left; lia|right; split; [lia|reflexivity]].
  Qed.
  Lemma n_item : forall s x r, item_at s x r -> 1 + len (snd (snd x)) + len r <= len s.
  Proof.
    intros s x r [s' k n t v m ls r' S H]. cbn [snd]. apply n_start in S. destruct ls as [|l ls].
    - inversion H; subst. cbn [join]. lia.
    - destruct S as [S|[_ ->]].
      + apply (n_lines 0 _ (i_item_line k n)) in H; [|discriminate]. change (join [c_nl] (v :: l :: ls)) with (v ++ [c_nl] ++ join [c_nl] (l :: ls)). lens. lia.
      + exfalso. inversion H as [|? ? ? ? ? X]; subst. exact (lineish_nil _ _ _ _ (i_item_line k n) X).
  Qed.
  Lemma n_html : forall s v r, html_at s v r -> s = v ++ r /\ 1 <= len v.
  Proof.
    intros s v r H. apply first_in in H as (R & I & H). destruct I as [<-|[<-|[<-|[<-|[<-|[<-|[<-|[]]]]]]]].
    - destruct H as (t & x & b & e & -> & E & _). split; [exact E|]. lens. lia.
    - destruct H as (b & -> & E & _). split; [exact E|]. lens. lia.
    - destruct H as (b & -> & E & _). split; [exact E|]. lens. lia.
    - destruct H as (c & _ & b & -> & E & _). split; [exact E|]. lens. lia.
    - destruct H as (b & -> & E & _). split; [exact E|]. lens. lia.
    - destruct H as (o & t & x & b & e & m & -> & E & I & _). split; [exact E|]. destruct I as [<-|[<-|[]]]; lens; lia.
    - destruct H as (t & x & b & e & -> & E & _ & X & _). split; [exact E|]. destruct X as [->|[-> | ->]]; lens; lia.
  Qed.
  Definition cells_len (l : list str) : nat := total (map len l).
  Lemma n_cell : forall s t r, cell_at s t r -> len t + len r <= len s /\ 1 <= len t.
  Proof.
    intros s t r [N H]. split; [|destruct t; [congruence|cbn; lia]]. clear N. induction H; lens; lia.
  Qed.
  Lemma n_cells : forall A (R : rule A) (f : A -> nat), (forall s x r, R s x r -> f x + len r <= len s) ->
    forall s l r, cells R s l r -> total (map f l) + len r <= len s.
  Proof.
    intros A R f H s l r X. induction X as [s x m m' r X E Y|s x m l r X _ IH]; apply H in X; cbn [map total fold_right] in *.
    - apply n_end in Y as [Y _]. destruct E as [->| ->]; lens; lia.
    - fold (total (map f l)) in *. lens. lia.
  Qed.
  Lemma n_row : forall A (R : rule A) (f : A -> nat), (forall s x r, R s x r -> f x + len r <= len s) ->
    forall s l r, row R s l r -> (fun l => 1 + total (map f l)) l + len r <= len s.
  Proof. intros A R f H s l r (k & m & -> & _ & C). apply (n_cells _ _ _ H) in C. lens. lia. Qed.
  Lemma cells_all : forall s l r, cells cell_at s l r -> Forall (fun t => 1 <= len t) l.
  Proof. intros s l r X. induction X as [s x m m' r X E Y|s x m l r X _ IH]; apply n_cell in X as [_ X]; constructor; auto. Qed.
  Lemma n_align : forall s a r, align_at s a r -> (fun _ => 0) a + len r <= len s.
  Proof. intros s a r (w & n & w' & _ & _ & _ & [[_ ->]|[[_ ->]|[[_ ->]|[_ ->]]]]); lens; lia. Qed.
  Lemma n_trimmed : forall s u, trimmed s u -> len u <= len s.
  Proof. intros s u (a & b & -> & _). lens. lia. Qed.
  Lemma n_upper : forall u, len (upper_text cfg u) <= 3 * len u.
  Proof.
    induction u as [|c u IH]; [cbn; lia|]. unfold upper_text in *. cbn [flat_map]. rewrite app_length. cbn [List.length].
    assert (X : len (if (c <? 128)%N then [if is_lower c then (c - 32)%N else c] else upper_table cfg c) <= 3).
    { destruct (c <? 128)%N; [cbn; lia|apply (proj2 Ht)]. }
    unfold char, str in *. lia.
  Qed.

  (** ** Shapes *)
  Definition fits (h : shape) (k : nat) : Prop :=
    match h with
    | HCode (CodeBlock (Fenced i) t) => text_size i + len t + 1 <= k
    | HCode (CodeBlock Indented t) => len t + 1 <= k
    | HHeading _ t | HQuote t => len t + 1 <= k
    | HText t | HLine t | HHtml t => len t <= k
    | HBreak => True
    | HCustom _ => False
    | HAlert ty t => exists j, 1 <= j /\ match ty with Custom n => len n | _ => 0 end <= 3 * j /\ j + len t <= k
    | HList _ items => items <> [] /\ total (map (fun it => 1 + len (snd it)) items) <= k
    | HFootnote label t => len label + len t + 1 <= k
    | HDefinition label d t => len label + len d + text_size t + 1 <= k
    | HTable header rows al => List.length al = List.length header /\ List.length header <= cells_len header /\
        cells_len header + total (map (fun row => 1 + cells_len row) rows) + 2 <= k
    end.
  Lemma n_shape : forall s h r, first_of (block_rules cfg) s h r ->
    (exists k, fits h k /\ 1 <= k /\ k + len r <= len s) /\ block_behavior cfg h <> Ignore /\ plain_behavior (block_behavior cfg h) /\ forall l, h <> HCustom l.
  Proof.
    intros s h r H. apply first_in in H as (R & I & H). unfold block_rules in I. cbn [In] in I.
    pose proof Hu as (_ & K & _ & CB). repeat (apply Forall_cons_iff in K; destruct K as [? K]). clear K.
    repeat (destruct I as [<-|I]; [unfold on in H; try match type of H with _ /\ _ => destruct H as [? H] end|]); try contradiction.
    - split; [|split; [|split]; [inversion H as [|? ? ? FF]; subst; [|inversion FF; subst]; assumption..|intros ? ->; inversion H as [|? ? ? FF]; subst; inversion FF]].
      inversion H as [? ls ? N RP|? ? ? FF]; subst; cbn [fits].
      + apply (n_lines 1 _ i_code_line) in RP; [|assumption]. exists (len (join [c_nl] ls) + 1). lia.
      + inversion FF as [k f n m0 info m1 ls m2 ? _ IF Hn _ IN RP FE]; subst. exists (text_size info + len (join [c_nl] ls) + 1). split; [apply le_n|]. split; [lia|].
        destruct FE as (k' & j & m3 & -> & _ & Hj & E). apply n_end in E as [E _].
        apply n_inner in RP; [| |destruct k'; [destruct j; [lia|]|]; discriminate].
        * destruct IN as [[-> X]|(v & -> & X)]; cbn [text_size]; [apply n_end in X as [X _]|apply n_text_line in X as [[X|[X _]] _]]; lens; lia.
        * intros s1 v1 r1 (_ & m' & S & PL). apply n_strip in S. apply n_plain_line in PL as [PL|[PL ->]]; [left; lia|right; split; [lia|reflexivity]].
    - split; [|split; [|split]; [inversion H; subst; assumption..|intros ? ->; inversion H]].
      inversion H as [n w m0 v ? Hn _ _ _ T]; subst. cbn [fits]. exists (len v + 1). split; [lia|]. split; [lia|]. apply n_text_line in T as [[T|[T _]] _]; lens; lia.
    - split; [|split; [|split]; [inversion H; subst; assumption..|intros ? ->; inversion H]].
      inversion H as [? ls m0 l ? N RP U|? ls ? N RP _]; subst; cbn [fits].
      + apply (n_lines 0 _ i_paragraph_line) in RP; [|assumption]. exists (len (join [c_nl] ls) + 1). split; [lia|]. split; [lia|].
        destruct U as (k & c & n & w & m & -> & _ & Hn & _ & _ & E). apply n_end in E as [E _]. lens. lia.
      + assert (L1 : 1 <= len (join [c_nl] ls)).
        { destruct ls as [|a ls]; [congruence|]. inversion RP as [|? ? ? ? ? (_ & m & _ & X)]; subst. apply n_text_line in X as [_ X]. destruct ls; [exact X|]. change (join [c_nl] (a :: s0 :: ls)) with (a ++ [c_nl] ++ join [c_nl] (s0 :: ls)). lens. lia. }
        apply (n_lines 0 _ i_paragraph_line) in RP; [|assumption]. exists (len (join [c_nl] ls)). lia.
    - split; [|split; [|split]; [inversion H; subst; assumption..|intros ? ->; inversion H]].
      inversion H as [k c n w m ? _ Hn _ _ E]; subst. exists 1. cbn [fits]. split; [exact I|]. split; [lia|]. apply n_end in E as [E _]. lens. lia.
    - assert (BH : forall ty t, h = HAlert ty t -> block_behavior cfg h <> Ignore /\ plain_behavior (block_behavior cfg h)).
      { intros ty t ->. cbn [block_behavior]. destruct (b_github_alert cfg); split; try discriminate; exact I. }
      split; [|split; [|split]; [inversion H; subst; now eapply BH..|intros ? ->; inversion H]].
      inversion H as [? l ls ? u name ty RP T U AL _]; subst. cbn [fits].
      assert (NL : match ty with Custom n => len n | _ => 0 end + 3 <= 3 * len l).
      { apply n_trimmed in T. pose proof (n_upper u) as W. rewrite U in W. lens. destruct AL as [AL|(_ & -> & _)]; [|lens; lia].
        repeat (destruct AL as [AL|AL]; [injection AL as _ <-; lia|]). destruct AL. }
      exists (len l + 1 + len (join [c_nl] ls)). split; [exists (len l); lia|]. split; [lia|].
      destruct ls as [|a ls].
      + apply (n_lines 1 _ i_quote_line) in RP; [|discriminate]. cbn [join List.length] in *. lia.
      + apply (n_lines 1 _ i_quote_line) in RP; [|discriminate]. change (join [c_nl] (l :: a :: ls)) with (l ++ [c_nl] ++ join [c_nl] (a :: ls)) in RP. lens. lia.
    - split; [|split; [|split]; [inversion H; subst; assumption..|intros ? ->; inversion H]].
      inversion H as [? ls ? N RP _]; subst. cbn [fits]. apply (n_lines 1 _ i_quote_line) in RP; [|assumption]. exists (len (join [c_nl] ls) + 1). lia.
    - split; [|split; [|split]; [inversion H; subst; assumption..|intros ? ->; inversion H]].
      inversion H as [? k x items ? RP]; subst. cbn [fits]. apply (n_repeated _ _ _ n_item) in RP.
      exists (total (map (fun it => 1 + len (snd it)) (x :: map snd items))). split; [split; [discriminate|lia]|]. cbn [map total fold_right] in *. rewrite map_map. cbn [snd] in RP. split; [lia|]. exact RP.
    - split; [|split; [|split]; [inversion H; subst; assumption..|intros ? ->; inversion H]].
      inversion H as [k m0 v ? _ HT]; subst. cbn [fits]. apply n_html in HT as [-> HT]. exists (len v). lens. lia.
    - split; [|split; [|split]; [inversion H; subst; assumption..|intros ? ->; inversion H]].
      inversion H as [k label m0 m1 v m2 ls ? _ _ _ S X RP]; subst. cbn [fits]. exists (len label + len (join [c_nl] (v :: ls)) + 1). split; [lia|]. split; [lia|].
      apply n_strip in S. apply n_text_line in X as [X _]. destruct ls as [|a ls].
      + inversion RP; subst. cbn [join]. lens. lia.
      + destruct X as [X|[_ ->]].
        * apply (n_lines 0 _ i_footnote_line) in RP; [|discriminate]. change (join [c_nl] (v :: a :: ls)) with (v ++ [c_nl] ++ join [c_nl] (a :: ls)). lens. lia.
        * exfalso. inversion RP as [|? ? ? ? ? Y]; subst. exact (lineish_nil _ _ _ _ i_footnote_line Y).
    - split; [|split; [|split]; [inversion H; subst; assumption..|intros ? ->; inversion H]].
      inversion H as [k s0 label w m0 d m1 t m2 ? _ B _ D T X]; subst. cbn [fits]. exists (len label + len d + text_size t + 1). split; [lia|]. split; [lia|].
      apply n_bracket in B. apply n_destination in D. apply n_end in X as [X _].
      destruct T as [(x & -> & (w1 & m3 & -> & _ & _ & T))|(-> & -> & _)]; cbn [text_size]; [apply n_title_at in T|]; lens; lia.
    - split; [|split; [|split]; [inversion H; subst; assumption..|intros ? ->; inversion H]].
      inversion H as [? header m1 al m2 rows ? R1 R2 AL RP]; subst. cbn [fits].
      assert (CA : List.length header <= cells_len header).
      { destruct R1 as (k & m & _ & _ & C). apply cells_all in C. clear -C. unfold cells_len, total. induction C; cbn [map fold_right List.length] in *; unfold char, str in *; lia. }
      pose proof (fun s t r H => proj1 (n_cell s t r H)) as NC.
      apply (n_row _ _ _ NC) in R1. apply (n_row _ _ _ n_align) in R2. apply (n_repeated _ _ _ (n_row _ _ _ NC)) in RP. cbv beta in *. fold (cells_len header) in R1.
      exists (cells_len header + total (map (fun row => 1 + cells_len row) rows) + 2). split; [split; [exact AL|split; [exact CA|apply le_n]]|]. split; [lia|].
      assert (R1' : 1 + cells_len header + len m1 <= len s) by exact R1.
      assert (RP' : total (map (fun row => 1 + cells_len row) rows) + len r <= len m2) by exact RP. clear R1 RP. lia.
    - inversion H. congruence.
    - split; [|split; [|split]; [inversion H; subst; assumption..|intros ? ->; inversion H]].
      inversion H as [? m0 v ? S X]; subst. cbn [fits]. apply n_strip in S. apply n_text_line in X as [X N]. exists (len v). lia.
  Qed.

  (** ** Blocks: [G n] bounds the size of what [n] characters are read as *)
  Variable T : nat -> nat.
  Hypothesis T_add : forall a b, T a + T b <= T (a + b).
  Hypothesis T_table : b_table cfg <> Parse \/ forall n, n * n <= T n.
  Definition G (n : nat) : nat := F n + T n + 4 * n.
  Lemma G_add : forall a b, G a + G b <= G (a + b).
  Proof. intros a b. unfold G. pose proof (F_add a b). pose proof (T_add a b). lia. Qed.
  Lemma G_mono : forall a b, a <= b -> G a <= G b.
  Proof. intros a b H. pose proof (G_add a (b - a)). replace (a + (b - a)) with b in * by lia. lia. Qed.
  Lemma G_six : forall n, 6 * n <= G n.
  Proof. intros n. unfold G. pose proof (F_two n). lia. Qed.
  Lemma G_more : forall a n, G a + 6 * n <= G (a + n).
  Proof. intros a n. pose proof (G_add a n). pose proof (G_six n). lia. Qed.
  Lemma G_inline : forall a k, a <= k -> 1 <= k -> 1 + F a <= G k.
  Proof. intros a k H N. unfold G. pose proof (F_mono _ _ H). lia. Qed.
  Lemma G_under : forall a n k, a + n <= k -> G a + 6 * n <= G k.
  Proof. intros a n k H. pose proof (G_more a n). pose proof (G_mono _ _ H). lia. Qed.
  Definition cell_size (c : list inline) : nat := 1 + inlines_size c.
  Lemma row_bound : forall n l c, row_cells cfg n l c -> total (map cell_size c) <= 2 * n + F (cells_len l).
  Proof.
    intros n l c H. unfold cells_len, total. induction H as [l|n c _ IH|n t u i l c TR RD _ IH]; cbn [map fold_right] in *; [lia| |].
    - unfold cell_size at 1, inlines_size. cbn. lia.
    - apply reads_bound in RD. apply n_trimmed in TR. unfold cell_size at 1. apply F_mono in TR. pose proof (F_add (len t) (fold_right Nat.add 0 (map len l))). lia.
  Qed.
  Definition row_size (row : list (list inline)) : nat := 1 + total (map cell_size row).
  Lemma rows_bound : forall n rows l, Forall2 (row_cells cfg n) rows l ->
    total (map row_size l) <= List.length rows * (1 + 2 * n) + F (total (map (fun row => 1 + cells_len row) rows)) /\ List.length rows <= total (map (fun row => 1 + cells_len row) rows).
  Proof.
    intros n rows l H. unfold total. induction H as [|x y xs ys R _ [IH1 IH2]]; cbn [map fold_right List.length] in *; [lia|]. split; [|lia].
    apply row_bound in R. unfold row_size at 1. pose proof (F_add (1 + cells_len x) (fold_right Nat.add 0 (map (fun row => 1 + cells_len row) xs))).
    pose proof (F_mono (cells_len x) (1 + cells_len x) ltac:(lia)). rewrite Nat.mul_succ_l. lia.
  Qed.
  Definition item_size (it : list_item) : nat := 1 + blocks_size (li_blocks it).
  Lemma block_bound :
    (forall h b, makes cfg h b -> forall k, fits h k -> 1 <= k -> block_behavior cfg h = Parse -> block_size b <= G k) /\
    (forall items l, item_blocks cfg items l -> total (map item_size l) + List.length items <= G (total (map (fun it => 1 + len (snd it)) items))) /\
    (forall h o, makes_all cfg h o -> forall k, fits h k -> 1 <= k -> block_behavior cfg h <> Ignore -> plain_behavior (block_behavior cfg h) -> blocks_size o <= G k) /\
    (forall s l, blocks cfg s l -> blocks_size l <= G (len s)).
  Proof.
    apply block_mut; cbn [fits block_size block_behavior].
    - intros [[] c] k H N _; pose proof (G_six k); cbn [fits] in H; unfold char, str in *; lia.
    - intros hk t l RD k H N _. apply reads_bound in RD. pose proof (G_inline (len t) k ltac:(lia) N). lia.
    - intros t l RD k H N _. apply reads_bound in RD. pose proof (G_inline (len t) k H N). lia.
    - intros k _ N _. pose proof (G_six k). lia.
    - intros ty t bs _ IH k (j & J1 & J2 & J3) N _. fold (blocks_size bs). pose proof (G_under (len t) j k ltac:(lia)). lia.
    - intros t bs _ IH k H N _. fold (blocks_size bs). pose proof (G_under (len t) 1 k H). lia.
    - intros kd items l _ IH k [NE H] N _. pose proof (G_mono _ _ H). destruct items as [|it items]; [congruence|]. cbn [List.length] in IH.
      change (1 + total (map item_size l) <= G k). lia.
    - intros s k H N _. pose proof (G_six k). unfold char, str in *. lia.
    - intros label t bs _ IH k H N _. fold (blocks_size bs). pose proof (G_under (len t) (len label + 1) k ltac:(lia)). lia.
    - intros label d t l RD k H N _. apply reads_bound in RD. assert (E : 1 + F (len label) + (len d + text_size t) <= G k); [|lia]. unfold G. pose proof (F_mono (len label) k ltac:(lia)). lia.
    - intros header rows al h l RH RL k (A1 & A2 & A3) N HP. destruct T_table as [TT|TT]; [contradiction|].
      change (1 + (List.length al + (row_size h + total (map row_size l))) <= G k). apply row_bound in RH. apply rows_bound in RL as [RL1 RL2]. unfold row_size at 1.
      set (C := cells_len header) in *. set (D := total (map (fun row : list str => 1 + cells_len row) rows)) in *. set (n := List.length header) in *. set (m := List.length rows) in *. clearbody C D n m.
      assert (Q0 : n + m + 2 <= k) by lia. assert (Q : m * (1 + 2 * n) <= m + k * k) by (clear -Q0; nia). pose proof (TT k) as Q'. unfold G. pose proof (F_add C D) as Q1. pose proof (F_mono (C + D) k ltac:(lia)) as Q2. lia.
    - intros t l RD k H N _. apply reads_bound in RD. pose proof (G_inline (len t) k H N). lia.
    - cbn. lia.
    - intros t text bs items l _ IB _ IH. unfold total in *. cbn [map fold_right List.length snd] in *. unfold item_size at 1. cbn [li_blocks].
      set (X := fold_right Nat.add 0 (map (fun it : option task_state * str => S (len (snd it))) items)).
      assert (IH' : fold_right Nat.add 0 (map item_size l) + List.length items <= G X) by exact IH. clear IH. change (1 + blocks_size bs + fold_right Nat.add 0 (map item_size l) + S (List.length items) <= G (1 + len text + X)).
      pose proof (G_add (1 + len text) X). pose proof (G_under (len text) 1 (1 + len text) ltac:(lia)). lia.
    - intros h b _ IH k H N NI P. pose proof (G_six k). destruct (block_behavior cfg h) eqn:E; try contradiction; cbn [outcome]; unfold blocks_size; cbn [map total fold_right].
      + specialize (IH k H N eq_refl). lia.
      + cbn [block_size]. lia.
    - intros l k [].
    - intros s _. cbn. lia.
    - intros s bl m h r o l B H _ IM _ IH. apply n_blanks in B. subst s. apply n_shape in H as ((k & K1 & K2 & K3) & H1 & H2 & _). specialize (IM k K1 K2 H1 H2). rewrite blocks_app. pose proof (G_add k (len r)). pose proof (G_mono (k + len r) (len (concat bl ++ m)) ltac:(lens; lia)). lia.
  Qed.
  Theorem blocks_bound : forall s l, blocks cfg s l -> blocks_size l <= G (len s).
  Proof. apply block_bound. Qed.
End Size.
