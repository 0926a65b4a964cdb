(** Proof of C74: induction on the derivations of the grammar (C69, C70). *)
From Coq Require Import String Lia.
From Verif Require Import SpecParser Nom ParserInline ParserInlineFacts ParserBlock ParserTotal ParserTotal SyntaxDoc SpecInline SpecBlock SpecShape.
Import ListNotations.
Open Scope list_scope.

Scheme builds_mut := Minimality for builds Sort Prop
with yields_mut := Minimality for yields Sort Prop
with pieces_mut := Minimality for pieces Sort Prop
with reads_mut := Minimality for reads Sort Prop.
Combined Scheme inline_mut from builds_mut, yields_mut, pieces_mut, reads_mut.
Scheme makes_mut := Minimality for makes Sort Prop
with item_blocks_mut := Minimality for item_blocks Sort Prop
with makes_all_mut := Minimality for makes_all Sort Prop
with blocks_mut := Minimality for blocks Sort Prop.
Combined Scheme block_mut from makes_mut, item_blocks_mut, makes_all_mut, blocks_mut.

Section Shape.
  Variable entities : str -> option str.
  Variable punct : char -> bool.
  Variable upper : char -> str.
  Hypothesis Hent : forall k v, entities k = Some v -> v <> [].
  Let cfg := default_config entities punct upper.

  (** the strings inside of a piece *)
  Definition piece_shape (p : piece) : Prop :=
    match p with
    | PAutolink u => uri u \/ email u
    | PLink text _ _ => text <> []
    | PFootnote l => l <> [] /\ all is_alnum l
    | PReference text label => text <> [] /\ match label with Some l => l <> [] | None => True end
    | PBreak => True
    | PImage _ _ a => ~ In (ch "]") a
    | PCode c => c <> []
    | PWord w => w <> []
    | PEmph _ text | PStrike text => text <> []
    | PText t => t <> []
    | PCustom _ => False
    end.
  Lemma fits_ne : forall l, label_fits l -> l <> [].
  Proof. intros l [_ H] ->. inversion H. Qed.
  Lemma bracket_ne : forall s t r, bracket_at s t r -> t <> [].
  Proof. intros s t r (raw & _ & _ & F). now apply fits_ne. Qed.
  Lemma code_ne : forall raw c, raw <> [] -> code_content raw c -> c <> [].
  Proof.
    intros raw c N (t & T & [[-> E]|[-> _]]); [intros ->; inversion E|]. intros ->. apply N. inversion T. reflexivity.
  Qed.
  Lemma chunk_ne : forall s v r, chunk cfg s v r -> v <> [].
  Proof.
    intros s v r [E|[[_ E]|[_ [_ [N _]]]]]; [destruct E; discriminate| |exact N]. destruct E; [eapply Hent; eassumption|discriminate|discriminate].
  Qed.
  Lemma chunks_ne : forall s l r, chunks cfg s l r -> l <> [] -> concat l <> [].
  Proof.
    intros s l r C N. destruct C as [|s v m l r C _]; [congruence|]. cbn [concat]. apply chunk_ne in C. destruct v; [congruence|discriminate].
  Qed.
  Lemma first_in : forall A (l : list (rule A)) s p r, first_of l s p r -> exists R, In R l /\ R s p r.
  Proof. induction l as [|R l IH]; intros s p r H; [destruct H|]. destruct H as [H|[_ H]]; [exists R; split; [now left|exact H]|]. destruct (IH _ _ _ H) as (R' & I & X). exists R'. split; [now right|exact X]. Qed.
  Lemma piece_ok : forall s p r, first_of (inline_rules cfg) s p r -> piece_shape p.
  Proof.
    intros s p r H. apply first_in in H as (R & I & H). unfold inline_rules, element_rules in I. cbn [app In] in I.
    repeat (destruct I as [<-|I]; [unfold on in H; try destruct H as [_ H]; destruct H; cbn [piece_shape]|]); try contradiction; try exact I; auto.
    - now destruct H.
    - now apply bracket_ne in H.
    - split; [now apply bracket_ne in H|now apply bracket_ne in H0].
    - split; [now apply bracket_ne in H|exact Logic.I].
    - split; [now apply bracket_ne in H|exact Logic.I].
    - eapply code_ne; [|eassumption]. now destruct H as (_ & _ & N & _).
    - discriminate.
    - destruct H1 as (m' & _ & _ & _ & N & _). exact N.
    - discriminate H.
    - now apply chunks_ne in H0.
  Qed.
  Lemma piece_plain : forall p, piece_shape p -> behavior_of cfg p = Parse.
  Proof. intros p H. destruct p; reflexivity. Qed.
  Lemma shape_app : forall a b, inlines_shape a -> inlines_shape b -> inlines_shape (a ++ b).
  Proof. intros a b A B. unfold inlines_shape. rewrite flat_map_app. apply Forall_app. now split. Qed.
  Lemma shape_split : forall a b, inlines_shape (a ++ b) -> inlines_shape a /\ inlines_shape b.
  Proof. intros a b H. unfold inlines_shape in H. rewrite flat_map_app in H. now apply Forall_app in H. Qed.
  Lemma joins_shape : forall l l', joins_to l l' -> inlines_shape l /\ (l' = [] -> l = []) -> True -> inlines_shape l -> inlines_shape l' /\ (l <> [] -> l' <> []).
  Proof.
    intros l l' J _ _. induction J as [|l m n [a s t b] J IH]; intros H; [split; auto|].
    apply shape_split in H as [A H]. unfold inlines_shape in H. cbn [flat_map inline_preorder app] in H. inversion H as [|? ? H1 H']; subst. inversion H' as [|? ? H2 H3]; subst.
    destruct IH as [I1 I2].
    - apply shape_app; [exact A|]. unfold inlines_shape. cbn [flat_map inline_preorder app]. constructor; [|exact H3]. cbn in *. destruct s; [congruence|discriminate].
    - split; [exact I1|]. intros _. apply I2. destruct a; discriminate.
  Qed.
  Lemma inline_ok :
    (forall p i, builds cfg p i -> piece_shape p -> inlines_shape [i]) /\
    (forall p o, yields cfg p o -> piece_shape p -> inlines_shape o /\ o <> []) /\
    (forall s l, pieces cfg s l -> inlines_shape l /\ (s <> [] -> l <> [])) /\
    (forall s l, reads cfg s l -> inlines_shape l /\ (s <> [] -> l <> [])).
  Proof.
    assert (ONE : forall i c, inline_shape i -> inline_preorder i = i :: flat_map inline_preorder c -> inlines_shape c -> inlines_shape [i]).
    { intros i c H E C. unfold inlines_shape. cbn [flat_map]. rewrite app_nil_r, E. now constructor. }
    apply inline_mut.
    - intros u H. now apply (ONE _ []); [|reflexivity|constructor].
    - intros text d t c _ [C N] H. apply (ONE _ c); [now apply N|reflexivity|exact C].
    - intros l H. now apply (ONE _ []); [|reflexivity|constructor].
    - intros text label a b _ [A NA] _ [B NB] [H1 H2]. apply (ONE _ (b ++ a)); [split; auto|cbn [inline_preorder lr_label lr_text]; now rewrite flat_map_app|now apply shape_app].
    - intros text a _ [A NA] [H1 _]. apply (ONE _ (a ++ a)); [split; auto|cbn [inline_preorder lr_label lr_text]; now rewrite flat_map_app|now apply shape_app].
    - intros H. now apply (ONE _ []); [|reflexivity|constructor].
    - intros d t a H. now apply (ONE _ []); [|reflexivity|constructor].
    - intros c H. now apply (ONE _ []); [|reflexivity|constructor].
    - intros w H. now apply (ONE _ []); [|reflexivity|constructor].
    - intros text c _ [C N] H. apply (ONE _ c); [now apply N|reflexivity|exact C].
    - intros text c _ [C N] H. apply (ONE _ c); [now apply N|reflexivity|exact C].
    - intros text c _ [C N] H. apply (ONE _ [IEmphasis c]); [discriminate|reflexivity|]. apply (ONE _ c); [now apply N|reflexivity|exact C].
    - intros text c _ [C N] H. apply (ONE _ c); [now apply N|reflexivity|exact C].
    - intros t H. now apply (ONE _ []); [|reflexivity|constructor].
    - intros p i _ H P. rewrite piece_plain by exact P. cbn [outcome]. split; [now apply H|discriminate].
    - intros l [].
    - split; [constructor|congruence].
    - intros s p r o l F _ Hy _ [Hl _]. apply piece_ok in F. destruct (Hy F) as [Ho N]. split; [now apply shape_app|]. intros _. destruct o; [congruence|discriminate].
    - intros s l l' _ [H N] J _. destruct (joins_shape l l' J) as [H' N']; auto. split; [exact H|]. intros E. clear -J E. induction J as [|l m n [a s t b] J IH]; [exact E|]. apply IH in E. destruct a; discriminate.
  Qed.
  Lemma reads_shape : forall s l, reads cfg s l -> inlines_shape l /\ (s <> [] -> l <> []).
  Proof. apply inline_ok. Qed.

  (** ** Blocks *)
  Definition shape_shape (h : shape) : Prop :=
    match h with
    | HCode c => block_shape (BCodeBlock c)
    | HHeading k t => t <> [] /\ match k with Atx n => (1 <= n <= 6)%N | Setext _ => True end
    | HText t | HLine t => t <> []
    | HBreak => True
    | HAlert ty _ => alert_shape ty
    | HQuote t => ~ blank t
    | HList k items => items <> [] /\ match k with Ordered n => (n < 2 ^ 64)%N | Bullet _ => True end
    | HHtml s => begins_with (ch "<") s
    | HFootnote label _ => label <> [] /\ ~ In (ch "]") label
    | HDefinition label _ _ => label <> []
    | HTable header rows al => header <> [] /\ List.length al = List.length header
    | HCustom _ => False
    end.
  Lemma join_ne : forall sep l, l <> [] -> Forall (fun x => x <> []) l -> join sep l <> [].
  Proof. intros sep l N H. destruct H as [|x l Hx _]; [congruence|]. destruct l; cbn [join]; [exact Hx|]. destruct x; [congruence|discriminate]. Qed.
  Lemma repeated_all : forall A (R : rule A) (P : A -> Prop), (forall s x r, R s x r -> P x) ->
    forall s l r, repeated R s l r -> Forall P l.
  Proof. intros A R P H s l r X. induction X; constructor; eauto. Qed.
  Lemma text_line_ne : forall s v r, text_line s v r -> v <> [].
  Proof. intros s v r (m & _ & N & _). exact N. Qed.
  Lemma paragraph_line_ne : forall s v r, paragraph_line cfg s v r -> v <> [].
  Proof. intros s v r (_ & m & _ & H). now apply text_line_ne in H. Qed.
  Lemma marker_bound : forall s k r, marker_at s k r -> match k with Ordered n => (n < 2 ^ 64)%N | Bullet _ => True end.
  Proof. intros s k r H. destruct H; auto. Qed.
  Lemma item_bound : forall s k x r, item_at s (k, x) r -> match k with Ordered n => (n < 2 ^ 64)%N | Bullet _ => True end.
  Proof.
    intros s k x r H. inversion H as [? ? n t v m ls ? S _]; subst. apply first_in in S as (R & I & S).
    destruct I as [<-|[<-|[<-|[]]]]; inversion S; subst; eapply marker_bound; eassumption.
  Qed.
  Lemma raw_lower : forall t, In (map to_lower t) raw_names -> t <> [].
  Proof. intros t I ->. cbn in I. intuition discriminate. Qed.
  Lemma html_begins : forall s v r, html_at s v r -> begins_with (ch "<") v.
  Proof.
    assert (C : forall o c s v r, SpecBlock.closed (ch "<" :: o) c s v r -> begins_with (ch "<") v).
    { intros o c s v r (b & -> & _). eexists. reflexivity. }
    intros s v r H. apply first_in in H as (R & I & H). destruct I as [<-|[<-|[<-|[<-|[<-|[<-|[<-|[]]]]]]]].
    - destruct H as (t & x & b & e & -> & _). eexists. reflexivity.
    - eapply C. exact H.
    - eapply C. exact H.
    - destruct H as (c & _ & H). eapply C. exact H.
    - eapply C. exact H.
    - destruct H as (o & t & x & b & e & m & -> & _ & [<-|[<-|[]]] & _); eexists; reflexivity.
    - destruct H as (t & x & b & e & -> & E & T & _).
      assert (B : begins_with (ch "<") s).
      { destruct T as [(? & ? & ? & ? & ? & ? & ? & -> & _)|(? & ? & ? & -> & _)]; eexists; reflexivity. }
      assert (Ht : t <> []).
      { intros ->. cbn [app] in E. rewrite <- !app_assoc in E. rewrite <- E in T.
        destruct T as [(m & n & m1 & l & m2 & w & c & E1 & (L & _) & _ & RP & E2 & _)|(m & n & w & E1 & (L & _) & _)].
        - assert (G : List.length s < List.length s); [|lia].
          assert (LE : forall a l b, repeated attribute a l b -> List.length b <= List.length a).
          { intros a0 l0 b0 X. induction X as [|? ? ? ? ? [X _] _ IH]; [lia|]. subst. rewrite app_length. lia. }
          apply LE in RP. destruct L as (L & _). apply (f_equal (@List.length _)) in L, E1, E2. rewrite app_length in L. cbn [List.length] in E1. rewrite !app_length in E2. cbn [List.length] in E2. unfold char, str in *. lia.
        - destruct L as (L & _). apply (f_equal (@List.length _)) in L, E1. rewrite !app_length in *. cbn [List.length lit] in *. unfold char, str in *. lia. }
      destruct B as [u B]. rewrite B in E. destruct t as [|c t]; [congruence|]. injection E as <- _. eexists. reflexivity.
  Qed.
  Lemma after_blanks : forall s l m, repeated blank_line s l m -> ~ applies blank_line m.
  Proof. intros s l m H. induction H; assumption. Qed.
  Lemma blank_app_l : forall a b, ~ In 13%N a -> blank (a ++ b) -> blank a.
  Proof.
    induction a as [|c a IH]; intros b N H; [constructor|]. cbn [app] in H.
    inversion H as [|c' s' E H'|s' H'|s' H' E]; subst.
    - apply blank_sp; [assumption|]. eapply IH; [|eassumption]. intro J. apply N. now right.
    - apply blank_lf. eapply IH; [|eassumption]. intro J. apply N. now right.
    - exfalso. apply N. now left.
  Qed.
  Lemma blank_spaces : forall a, ~ In 10%N a -> ~ In 13%N a -> blank a -> all is_space a.
  Proof.
    intros a N1 N2 H. induction H as [|c s [->| ->] H IH|s H IH|s H IH]; [constructor| | | |].
    1,2: constructor; [reflexivity|apply IH; intro J; [apply N1|apply N2]; now right].
    - exfalso. apply N1. now left.
    - exfalso. apply N2. now left.
  Qed.
  Lemma join_first : forall l ls, exists b, join [c_nl] (l :: ls) = l ++ b.
  Proof. intros l ls. destruct ls; [exists []; cbn; now rewrite app_nil_r|]. eexists. reflexivity. Qed.
  Lemma indented_ne : forall s ls r, ls <> [] -> repeated code_line s ls r -> ~ applies blank_line s -> ~ blank (join [c_nl] ls).
  Proof.
    intros s ls r N R NB B. destruct R as [|s v m l r (m0 & E & (m1 & -> & N1 & N2 & LE)) _]; [congruence|].
    destruct (join_first v l) as [b E']. rewrite E' in B. apply blank_app_l in B; [|exact N2]. apply blank_spaces in B; [|assumption..].
    apply NB. assert (SP : exists w, s = w ++ v ++ m1 /\ all is_space w).
    { destruct E as [->| ->]; [exists (rep 4 c_sp)|exists [c_tab]]; (split; [reflexivity|repeat constructor]). }
    destruct SP as (w & -> & W).
    assert (LE' : exists e, m1 = e ++ m) by (destruct LE as [e r0 _|]; [exists e|exists []]; reflexivity). destruct LE' as (e & ->).
    exists (w ++ v ++ e), m. split; [now rewrite <- !app_assoc|]. exists (w ++ v), (e ++ m). split; [now rewrite <- !app_assoc|].
    split; [|exact LE]. unfold all. apply Forall_app. now split.
  Qed.
  Lemma shape_ok : forall m h r, ~ applies blank_line m -> first_of (block_rules cfg) m h r -> shape_shape h.
  Proof.
    intros m h r NB H. apply first_in in H as (R & I & H). unfold block_rules in I. cbn [In] in I.
    repeat (destruct I as [<-|I]; [unfold on in H; try destruct H as [_ H]|]); try contradiction.
    - inversion H as [? ls ? N RP|? ? ? F]; subst; [cbn; eapply indented_ne; eassumption|].
      inversion F as [k f n m0 info m1 ls m2 ? _ _ _ _ I _ _]; subst. cbn [shape_shape block_shape].
      destruct I as [[-> _]|(v & -> & V)]; [exact Logic.I|]. destruct V as (? & _ & N & N' & _). now split.
    - inversion H as [n w m0 v ? L _ _ _ T]; subst. cbn [shape_shape]. split; [now apply text_line_ne in T|lia].
    - inversion H as [? ls m0 l ? N RP _|? ls ? N RP _]; subst; cbn [shape_shape].
      + split; [|exact Logic.I]. apply join_ne; [exact N|]. eapply repeated_all; [|exact RP]. apply paragraph_line_ne.
      + apply join_ne; [exact N|]. eapply repeated_all; [|exact RP]. apply paragraph_line_ne.
    - inversion H; subst. exact Logic.I.
    - inversion H as [? l ls ? u name ty _ _ _ AL _]; subst. cbn [shape_shape].
      destruct AL as [AL|(A1 & -> & A2)]; [|now split]. cbn in AL. repeat (destruct AL as [AL|AL]; [injection AL as _ <-; exact Logic.I|]). destruct AL.
    - inversion H; subst. assumption.
    - inversion H as [? k x items ? RP]; subst. cbn [shape_shape]. split; [discriminate|]. inversion RP; subst. eapply item_bound; eassumption.
    - inversion H; subst. cbn [shape_shape]. eapply html_begins; eassumption.
    - inversion H; subst. cbn [shape_shape]. now split.
    - inversion H; subst. cbn [shape_shape]. eapply bracket_ne; eassumption.
    - inversion H as [? header m1 al m2 rows ? R1 _ L _]; subst. cbn [shape_shape]. split; [|exact L].
      destruct R1 as (k & m' & _ & _ & C). inversion C; discriminate.
    - inversion H as [? ? ? ? CB]. discriminate CB.
    - inversion H; subst. cbn [shape_shape]. eapply text_line_ne; eassumption.
  Qed.
  Lemma row_shape : forall n l c, row_cells cfg n l c -> List.length c = n /\ Forall cell_shape c.
  Proof.
    intros n l c H. induction H as [|n c _ [L F]|n t u i l c T RD _ [L F]]; [split; [reflexivity|constructor]| |].
    - split; [cbn; now f_equal|]. constructor; [now left|exact F].
    - split; [cbn; now f_equal|]. constructor; [right; now apply reads_shape in RD as [? _]|exact F].
  Qed.
  Definition ok (bs : list block) : Prop := Forall block_shape (flat_map block_preorder bs).
  Lemma block_plain : forall h, block_behavior cfg h = Parse.
  Proof. intros h. destruct h as [|[]| | | | | | | | | | |]; reflexivity. Qed.
  Lemma one : forall b c, block_preorder b = b :: flat_map block_preorder c -> block_shape b -> ok c -> ok [b].
  Proof. intros b c E H C. unfold ok. cbn [flat_map]. rewrite app_nil_r, E. now constructor. Qed.
  Lemma block_ok :
    (forall h b, makes cfg h b -> shape_shape h -> ok [b]) /\
    (forall l l', item_blocks cfg l l' -> (l <> [] -> l' <> []) /\ Forall block_shape (flat_map (fun it => flat_map block_preorder (li_blocks it)) l')) /\
    (forall h o, makes_all cfg h o -> shape_shape h -> ok o /\ o <> []) /\
    (forall s bs, blocks cfg s bs -> ok bs /\ (~ blank s -> bs <> [])).
  Proof.
    apply block_mut.
    - intros c H. now apply (one _ []); [reflexivity| |constructor].
    - intros k t l RD H. apply reads_shape in RD as [Hl N]. destruct H as [H1 H2]. apply (one _ []); [reflexivity| |constructor]. cbn [block_shape]. auto.
    - intros t l RD H. apply reads_shape in RD as [Hl N]. apply (one _ []); [reflexivity| |constructor]. cbn [block_shape]. auto.
    - intros H. now apply (one _ []); [reflexivity| |constructor].
    - intros ty t bs _ [O _] H. now apply (one _ bs).
    - intros t bs _ [O N] H. apply (one _ bs); [reflexivity|exact (N H)|exact O].
    - intros k items l _ [N F] [H1 H2]. unfold ok. cbn [flat_map block_preorder l_items]. rewrite app_nil_r. constructor; [|exact F]. cbn [block_shape]. split; [now apply N|exact H2].
    - intros s H. now apply (one _ []); [reflexivity| |constructor].
    - intros label t bs _ [O _] H. now apply (one _ bs).
    - intros label d t l RD H. apply reads_shape in RD as [Hl N]. apply (one _ []); [reflexivity| |constructor]. cbn [block_shape]. split; [now apply N|exact Hl].
    - intros header rows al h l RH RL [H1 H2]. apply (one _ []); [reflexivity| |constructor]. cbn [block_shape].
      apply row_shape in RH as [L1 F1].
      assert (RL' : Forall (fun row => List.length row = List.length header /\ Forall cell_shape row) l).
      { clear -RL Hent. induction RL as [|x y xs ys RX _ IH]; constructor; [now apply row_shape in RX|exact IH]. }
      split.
      + unfold rectangular. cbn [t_rows t_alignments]. split; [discriminate|]. split; [intros ->; destruct header; [congruence|discriminate]|].
        rewrite H2. constructor; [exact L1|]. eapply Forall_impl; [|exact RL']. cbn. tauto.
      + cbn [t_rows]. constructor; [exact F1|]. eapply Forall_impl; [|exact RL']. cbn. tauto.
    - intros t l RD H. apply reads_shape in RD as [Hl N]. apply (one _ []); [reflexivity| |constructor]. cbn [block_shape]. auto.
    - split; [congruence|constructor].
    - intros t text bs items l _ [O _] _ [_ F]. split; [discriminate|]. cbn [flat_map li_blocks]. apply Forall_app. now split.
    - intros h b _ H P. rewrite block_plain. cbn [outcome]. split; [now apply H|discriminate].
    - intros l [].
    - intros s B. split; [constructor|contradiction].
    - intros s bl m h r o l RP F _ Hm _ [Hl _]. apply after_blanks in RP. destruct (Hm (shape_ok _ _ _ RP F)) as [O N].
      split; [unfold ok in *; rewrite flat_map_app; apply Forall_app; now split|]. intros _. destruct o; [congruence|discriminate].
  Qed.
  Lemma document_shape : forall s r d, parse_markdown cfg s = Ok r d -> Forall block_shape (doc_blocks d) /\ (~ blank s -> d_blocks d <> []).
  Proof.
    intros s r d E. assert (CO : custom_ok cfg) by (split; discriminate).
    destruct (parse_total cfg CO ltac:(discriminate) ltac:(discriminate) s) as [d' E']. rewrite E in E'. injection E' as -> ->.
    apply SyntaxDoc.parse_markdown_blocks in E; [|exact CO|discriminate..]. now apply block_ok in E.
  Qed.
End Shape.
