(** Where the characters of a parse come from: everything the grammar (C69, C70)
    reads out of a string is made of characters of that string.  Used for C75 and C76. *)
From Coq Require Import String Lia.
From Verif Require Import SpecParser Nom ParserInline ParserInlineFacts ParserBlock ParserTotal SyntaxDoc SpecInline SpecBlock SpecShape ShapeFacts.
Import ListNotations.
Open Scope list_scope.

Section Chars.
  Variable Q : char -> Prop.
  Notation QS := (Forall Q).
  (** [QS] of the parts of a string *)
  Ltac parts := repeat match goal with
    | H : Forall Q (_ ++ _) |- _ => apply Forall_app in H; destruct H
    | H : Forall Q (_ :: _) |- _ => apply Forall_cons_iff in H; destruct H
    | H : _ /\ _ |- _ => destruct H
    end.
  Ltac q := parts; repeat match goal with
    | |- Forall Q (_ ++ _) => apply Forall_app; split
    | |- Forall Q (_ :: _) => apply Forall_cons
    | |- Forall Q [] => constructor
    | |- _ /\ _ => split
    end; try assumption.
  Definition QO (o : option str) : Prop := match o with Some s => QS s | None => True end.

  Lemma q_label : forall raw t, label_text raw t -> QS raw -> QS t.
  Proof. intros raw t H. induction H; intros; q; apply IHlabel_text; q. Qed.
  Lemma q_bracket : forall s t r, bracket_at s t r -> QS s -> QS t /\ QS r.
  Proof. intros s t r (raw & -> & L & _) H. parts. split; [eapply q_label; eassumption|assumption]. Qed.
  Lemma q_angle : forall a b, angle_text a b -> QS a -> QS b.
  Proof. intros a b H. induction H; intros; q; apply IHangle_text; q. Qed.
  Lemma q_destination : forall s d r, destination_at s d r -> QS s -> QS d /\ QS r.
  Proof. intros s d r H HQ. destruct H; q. eapply q_angle; eassumption. Qed.
  Lemma q_title : forall c a b, title_text c a b -> QS a -> QS b.
  Proof. intros c a b H. induction H; intros; q; apply IHtitle_text; q. Qed.
  Lemma q_title_at : forall s t r, title_at s t r -> QS s -> QS t /\ QS r.
  Proof. intros s t r (o & c & raw & _ & T & ->) H. q. eapply q_title; eassumption. Qed.
  Lemma q_tail : forall s x r, link_tail_at s x r -> QS s -> QS (fst x) /\ QO (snd x) /\ QS r.
  Proof.
    intros s [d t] r (w1 & s1 & s2 & s3 & w3 & -> & _ & D & T & -> & _) H. cbn [fst snd] in *. parts.
    apply q_destination in D as [D1 D2]; [|assumption].
    destruct T as [[-> <-]|(w2 & m & t' & -> & -> & _ & T)]; parts; [now split|]. apply q_title_at in T as [T1 T2]; [|assumption]. parts. now split.
  Qed.
  (** what a piece holds that is read again, and what is not *)
  Definition piece_texts (p : piece) : Prop :=
    match p with
    | PLink text _ _ | PEmph _ text | PStrike text => QS text
    | PReference text label => QS text /\ QO label
    | _ => True
    end.
  Definition piece_leaves (p : piece) : Prop :=
    match p with
    | PAutolink s | PFootnote s | PCode s | PWord s | PText s => QS s
    | PLink _ d t => QS d /\ QO t
    | PImage d t a => QS d /\ QO t /\ QS a
    | _ => True
    end.
  Section Custom.
    Variable cfg : config.
    Hypothesis Hc : custom_ok cfg.
    Lemma q_run : forall s v r, run_of cfg s v r -> QS s -> QS v /\ QS r.
    Proof. intros s v r H. induction H as [s _|c s t r _ _ IH]; intros HQ; [now split|]. parts. destruct IH; q. Qed.
    Lemma q_entity_rest : forall s v r, entity_at (html_entities cfg) s v r -> QS s -> QS r.
    Proof. intros s v r H HQ. destruct H; q. Qed.
    Lemma q_chunk_rest : forall s v r, chunk cfg s v r -> QS s -> QS r.
    Proof.
      intros s v r [E|[[_ E]|[_ [_ [N E]]]]] H; [inversion E; subst; now q|now apply q_entity_rest in E|now apply q_run in E].
    Qed.
    Lemma q_chunks_rest : forall s l r, chunks cfg s l r -> QS s -> QS r.
    Proof. intros s l r H. induction H as [|s v m l r C _ IH]; intros HQ; [assumption|]. apply IH. now apply q_chunk_rest in C. Qed.
    Lemma q_custom : forall s p r, r_custom cfg s p r -> QS s -> QS r.
    Proof.
      intros s p r [q s' l r' E X] HQ. apply (proj1 Hc) in E as [E _]. apply E in X as (u & -> & _). now q.
    Qed.
    Lemma q_ticks : forall n raw r s, code_span_source n raw r s -> QS s -> QS raw /\ QS r.
    Proof. intros n raw r s (-> & _) H. now q. Qed.
    Lemma q_piece : forall s p r, first_of (inline_rules cfg) s p r -> QS s -> piece_texts p /\ QS r.
    Proof.
      intros s p r H HQ. apply first_in in H as (R & I & H). unfold inline_rules, element_rules in I. cbn [app In] in I.
      repeat (destruct I as [<-|I]; [unfold on in H; try destruct H as [_ H]|]); try contradiction.
      - destruct H as [s u r [-> _]]. cbn [piece_texts]. now q.
      - destruct H as [s text m d t r B L]. apply q_bracket in B as [B1 B2]; [|assumption]. apply q_tail in L as (_ & _ & L); [|assumption]. now split.
      - destruct H. cbn [piece_texts]. now q.
      - destruct H as [s text m label r B L|s text r B|s text r B _ _]; apply q_bracket in B as [B1 B2]; try assumption.
        + apply q_bracket in L as [L1 L2]; [|assumption]. now repeat split.
        + cbn [piece_texts QO]. now q.
        + now repeat split.
      - destruct H; cbn [piece_texts]; now q.
      - destruct H as [a d t m r _ L]. parts. apply q_tail in L as (_ & _ & L); [|assumption]. now split.
      - destruct H as [n raw s c r C _]. apply q_ticks in C as [_ C]; [|assumption]. now split.
      - destruct H. cbn [piece_texts]. now q.
      - destruct H as [m n s text r _ _ D _]. destruct D as (m' & -> & _). cbn [piece_texts]. now q.
      - destruct H. cbn [piece_texts]. now q.
      - pose proof H as H'. destruct H' as [? ? ? ? ? ?]. split; [exact Logic.I|]. now apply q_custom in H.
      - destruct H as [s l r _ C]. split; [exact Logic.I|]. now apply q_chunks_rest in C.
    Qed.
  End Custom.

  (** ** Blocks *)
  Hypothesis Qnl : Q c_nl.
  Lemma q_join : forall l, Forall (Forall Q) l -> QS (join [c_nl] l).
  Proof.
    intros l H. induction H as [|x l Hx Hl IH]; [constructor|]. destruct l; cbn [join]; [assumption|]. q.
  Qed.
  Lemma q_concat : forall l, Forall (Forall Q) l -> QS (concat l).
  Proof. intros l H. induction H; cbn [concat]; q. Qed.
  Lemma q_line_end : forall m r, line_end m r -> QS m -> QS r.
  Proof. intros m r H HQ. destruct H; now q. Qed.
  Lemma q_plain_line : forall s v r, plain_line s v r -> QS s -> QS v /\ QS r.
  Proof. intros s v r (m & -> & _ & _ & E) H. parts. apply q_line_end in E; [now split|assumption]. Qed.
  Lemma q_text_line : forall s v r, text_line s v r -> QS s -> QS v /\ QS r.
  Proof. intros s v r (m & -> & _ & _ & E & _) H. parts. apply q_line_end in E; [now split|assumption]. Qed.
  Lemma q_blank_line : forall s v r, blank_line s v r -> QS s -> QS v /\ QS r.
  Proof. intros s v r (-> & _) H. now q. Qed.
  Lemma q_strip : forall k s m, strip k s m -> QS s -> QS m.
  Proof. intros k s m (j & -> & _) H. now q. Qed.
  Lemma q_repeated : forall A (R : rule A) (P : A -> Prop), (forall s x r, R s x r -> QS s -> P x /\ QS r) ->
    forall s l r, repeated R s l r -> QS s -> Forall P l /\ QS r.
  Proof.
    intros A R P H s l r X. induction X as [s _|s a m l r X _ IH]; intros HQ; [split; [constructor|assumption]|].
    apply H in X as [X1 X2]; [|assumption]. destruct (IH X2). split; [now constructor|assumption].
  Qed.
  Definition shape_texts (h : shape) : Prop :=
    match h with
    | HHeading _ t | HText t | HAlert _ t | HQuote t | HFootnote _ t | HDefinition t _ _ | HLine t => QS t
    | HList _ items => Forall (fun x => QS (snd x)) items
    | HTable header rows _ => Forall (Forall Q) header /\ Forall (Forall (Forall Q)) rows
    | _ => True
    end.
  Definition shape_leaves (h : shape) : Prop :=
    match h with
    | HCode (CodeBlock k t) => QS t /\ match k with Fenced i => QO i | Indented => True end
    | HHtml t => QS t
    | HFootnote l _ => QS l
    | HDefinition _ d t => QS d /\ QO t
    | _ => True
    end.
  Definition fine (h : shape) (r : str) : Prop := shape_texts h /\ shape_leaves h /\ QS r.
  Lemma q_code_line : forall s v r, code_line s v r -> QS s -> QS v /\ QS r.
  Proof. intros s v r (m & [->| ->] & L) H; parts; now apply q_plain_line in L. Qed.
  Lemma q_fenced_line : forall k f n s v r, fenced_line k f n s v r -> QS s -> QS v /\ QS r.
  Proof. intros k f n s v r (_ & m & S & L) H. apply q_strip in S; [|assumption]. now apply q_plain_line in L. Qed.
  Lemma q_fence_end : forall f n s r, fence_end f n s r -> QS s -> QS r.
  Proof. intros f n s r (k & j & m & -> & _ & _ & E) H. parts. now apply q_line_end in E. Qed.
  Lemma q_quote_line : forall s v r, quote_line s v r -> QS s -> QS v /\ QS r.
  Proof. intros s v r (k & m & -> & _ & L) H. parts. now apply q_plain_line in L. Qed.
  Lemma q_marker : forall s k r, marker_at s k r -> QS s -> QS r.
  Proof. intros s k r H HQ. destruct H; now q. Qed.
  Lemma q_task : forall s t r, task_at s t r -> QS s -> QS r.
  Proof. intros s t r H HQ. destruct H; now q. Qed.
  Lemma q_start : forall s k n t v r, item_start s (k, n, t, v) r -> QS s -> QS v /\ QS r.
  Proof.
    intros s k n t v r H HQ. apply first_in in H as (R & I & H). destruct I as [<-|[<-|[<-|[]]]].
    - inversion H as [k0 s0 kind w m r0 _ M _ E]; subst. parts. apply q_marker in M; [|assumption]. parts. apply q_line_end in E; [|assumption]. split; [constructor|assumption].
    - inversion H as [k0 s0 kind j t0 m1 m r0 _ M _ T E]; subst. parts. apply q_marker in M; [|assumption]. parts. apply q_task in T; [|assumption]. apply q_line_end in E; [|assumption]. split; [constructor|assumption].
    - inversion H as [k0 s0 kind j m1 t0 m v0 r0 _ M _ _ T L]; subst. parts. apply q_marker in M; [|assumption]. parts.
      assert (QS m) by (destruct T as [(x & _ & T)|(_ & -> & _)]; [apply q_task in T; [now q|assumption]|assumption]).
      now apply q_plain_line in L.
  Qed.
  Lemma q_item_line : forall k n s v r, item_line k n s v r -> QS s -> QS v /\ QS r.
  Proof.
    intros k n s v r (_ & _ & H) HQ. apply first_in in H as (R & I & H). destruct I as [<-|[<-|[]]].
    - destruct H as (m & S & L). apply q_strip in S; [|assumption]. now apply q_text_line in L.
    - destruct H as (bl & m & v' & _ & B & L & ->). apply (q_repeated _ _ QS q_blank_line) in B as [B1 B2]; [|assumption]. parts.
      apply q_text_line in L as [L1 L2]; [|assumption]. q. now apply q_concat.
  Qed.
  Lemma q_item : forall s x r, item_at s x r -> QS s -> QS (snd (snd x)) /\ QS r.
  Proof.
    intros s x r [s' k n t v m ls r' S L] HQ. apply q_start in S as [S1 S2]; [|assumption].
    apply (q_repeated _ _ QS (q_item_line k n)) in L as [L1 L2]; [|assumption]. cbn [snd]. split; [apply q_join; now constructor|assumption].
  Qed.
  Lemma q_html_rest : forall s v r, html_at s v r -> QS s -> QS v /\ QS r.
  Proof.
    intros s v r H HQ. assert (E : s = v ++ r); [|subst; now q].
    apply first_in in H as (R & I & H). destruct I as [<-|[<-|[<-|[<-|[<-|[<-|[<-|[]]]]]]]].
    - now destruct H as (t & x & b & e & _ & E & _).
    - now destruct H as (b & _ & E & _).
    - now destruct H as (b & _ & E & _).
    - now destruct H as (c & _ & b & _ & E & _).
    - now destruct H as (b & _ & E & _).
    - now destruct H as (o & t & x & b & e & m & _ & E & _).
    - now destruct H as (t & x & b & e & _ & E & _).
  Qed.
  Lemma q_footnote_line : forall s v r, footnote_line s v r -> QS s -> QS v /\ QS r.
  Proof. intros s v r (m & -> & L) H. parts. now apply q_text_line in L. Qed.
  Lemma q_definition_title : forall s t r, definition_title s t r -> QS s -> QS t /\ QS r.
  Proof. intros s t r (w & m & -> & _ & _ & T) H. parts. now apply q_title_at in T. Qed.
  Lemma q_cell_text : forall s t r, cell_text s t r -> QS s -> QS t /\ QS r.
  Proof. intros s t r H. induction H as [s _|s t r _ IH|c s t r _ _ _ _ IH]; intros HQ; parts; [split; [constructor|assumption]| |]; destruct IH; q. Qed.
  Lemma q_cell : forall s t r, cell_at s t r -> QS s -> QS t /\ QS r.
  Proof. intros s t r [_ H]. now apply q_cell_text. Qed.
  Lemma q_align : forall s a r, align_at s a r -> QS s -> True /\ QS r.
  Proof.
    intros s a r (w & n & w' & _ & _ & _ & H) HQ. split; [exact Logic.I|].
    destruct H as [[_ ->]|[[_ ->]|[[_ ->]|[_ ->]]]]; now q.
  Qed.
  Lemma q_cells : forall A (R : rule A) (P : A -> Prop), (forall s x r, R s x r -> QS s -> P x /\ QS r) ->
    forall s l r, cells R s l r -> QS s -> Forall P l /\ QS r.
  Proof.
    intros A R P H s l r X. induction X as [s x m m' r X E L|s x m l r X _ IH]; intros HQ; apply H in X as [X1 X2]; try assumption.
    - split; [now constructor|]. eapply q_line_end; [exact L|]. destruct E as [->| ->]; [assumption|now parts].
    - parts. destruct IH; [assumption|]. split; [now constructor|assumption].
  Qed.
  Lemma q_row : forall A (R : rule A) (P : A -> Prop), (forall s x r, R s x r -> QS s -> P x /\ QS r) ->
    forall s l r, row R s l r -> QS s -> Forall P l /\ QS r.
  Proof. intros A R P H s l r (k & m & -> & _ & C) HQ. parts. eapply q_cells; eassumption. Qed.
  Lemma q_break_line : forall s h r, r_break_line s h r -> QS s -> QS r.
  Proof. intros s h r H HQ. destruct H as [k c n w m r _ _ _ _ E]. parts. now apply q_line_end in E. Qed.
  Lemma q_underline : forall s h r, underline s h r -> QS s -> QS r.
  Proof. intros s h r (k & c & n & w & m & -> & _ & _ & _ & _ & E) HQ. parts. now apply q_line_end in E. Qed.
  Section CustomBlock.
    Variable cfg : config.
    Hypothesis Hc : custom_ok cfg.
    Lemma q_paragraph_line : forall s v r, paragraph_line cfg s v r -> QS s -> QS v /\ QS r.
    Proof. intros s v r (_ & m & S & L) H. apply q_strip in S; [|assumption]. now apply q_text_line in L. Qed.
    Lemma q_shape : forall s h r, first_of (block_rules cfg) s h r -> QS s -> fine h r.
    Proof.
      intros m h r H HQ. apply first_in in H as (R & I & H). unfold block_rules in I. cbn [In] in I. unfold fine.
      repeat (destruct I as [<-|I]; [unfold on in H; try destruct H as [_ H]|]); try contradiction.
      - inversion H as [? ls ? N RP|? ? ? F]; subst; cbn [shape_texts shape_leaves QO].
        + apply (q_repeated _ _ QS q_code_line) in RP as [L1 L2]; [|assumption]. q; try exact Logic.I. now apply q_join.
        + inversion F as [k f n m0 info m1 ls m2 ? _ _ _ _ I RP FE]; subst. cbn [shape_texts shape_leaves]. parts.
          assert (X : QO info /\ QS m1).
          { destruct I as [[-> L]|(v & -> & L)]; [apply q_line_end in L; [now split|assumption]|]. now apply q_text_line in L. }
          destruct X as [X1 X2]. apply (q_repeated _ _ QS (q_fenced_line k f n)) in RP as [L1 L2]; [|assumption].
          apply q_fence_end in FE; [|assumption]. q; try exact Logic.I. now apply q_join.
      - inversion H as [n w m0 v ? L _ _ _ T]; subst. parts. apply q_text_line in T as [T1 T2]; [|assumption]. now repeat split.
      - inversion H as [? ls m0 l ? N RP U|? ls ? N RP _]; subst; cbn [shape_texts shape_leaves];
          apply (q_repeated _ _ QS q_paragraph_line) in RP as [L1 L2]; try assumption; q; try exact Logic.I; try (now apply q_join). now apply q_underline in U.
      - pose proof (q_break_line _ _ _ H HQ). inversion H; subst. now repeat split.
      - inversion H as [? l ls ? u name ty RP _ _ AL _]; subst. cbn [shape_texts shape_leaves].
        apply (q_repeated _ _ QS q_quote_line) in RP as [L1 L2]; [|assumption]. inversion L1; subst. q; try exact Logic.I. now apply q_join.
      - inversion H as [? ls ? _ RP _]; subst. cbn [shape_texts shape_leaves].
        apply (q_repeated _ _ QS q_quote_line) in RP as [L1 L2]; [|assumption]. q; try exact Logic.I. now apply q_join.
      - inversion H as [? k x items ? RP]; subst. cbn [shape_texts shape_leaves].
        apply (q_repeated _ _ (fun x => QS (snd (snd x))) q_item) in RP as [L1 L2]; [|assumption]. inversion L1 as [|? ? L3 L4]; subst. cbn [snd] in L3. q; try exact Logic.I.
        apply Forall_cons; [assumption|now apply Forall_map].
      - inversion H as [k m0 v ? _ HT]; subst. parts. apply q_html_rest in HT as [L1 L2]; [|assumption]. now repeat split.
      - inversion H as [k label m0 m1 v m2 ls ? _ _ _ S L RP]; subst. parts. apply q_strip in S; [|assumption]. apply q_text_line in L as [L1 L2]; [|assumption].
        apply (q_repeated _ _ QS q_footnote_line) in RP as [L3 L4]; [|assumption]. cbn [shape_texts shape_leaves]. q. apply q_join. now constructor.
      - inversion H as [k s0 label w m0 d m1 t m2 ? _ B _ D T L]; subst. parts. apply q_bracket in B as [B1 B2]; [|assumption]. parts.
        apply q_destination in D as [D1 D2]; [|assumption]. cbn [shape_texts shape_leaves].
        assert (X : QO t /\ QS m2). { destruct T as [(x & -> & T)|(-> & -> & _)]; [now apply q_definition_title in T|now split]. }
        destruct X as [X1 X2]. apply q_line_end in L; [|assumption]. now repeat split.
      - inversion H as [? header m1 al m2 rows ? R1 R2 L RP]; subst. cbn [shape_texts shape_leaves].
        apply (q_row _ _ QS q_cell) in R1 as [A1 A2]; [|assumption]. apply (q_row _ _ (fun _ => True) q_align) in R2 as [A3 A4]; [|assumption].
        apply (q_repeated _ _ (Forall QS) (q_row _ _ QS q_cell)) in RP as [L1 L2]; [|assumption]. now repeat split.
      - inversion H as [p ? l ? CB X]; subst. apply (proj2 Hc) in CB as [E _]. apply E in X as (u & -> & _). parts. now repeat split.
      - inversion H as [? m0 v ? S L]; subst. apply q_strip in S; [|assumption]. apply q_text_line in L as [L1 L2]; [|assumption]. now repeat split.
    Qed.
    Lemma q_blanks : forall s l m, repeated blank_line s l m -> QS s -> QS m.
    Proof. intros s l m H HQ. now apply (q_repeated _ _ QS q_blank_line) in H. Qed.
    Lemma q_trimmed : forall s u, trimmed s u -> QS s -> QS u.
    Proof. intros s u (a & b & -> & _) H. now parts. Qed.
  End CustomBlock.
End Chars.
