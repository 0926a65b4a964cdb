(** Reading back what was written. *)
From Coq Require Import String Permutation Lia.
From Verif Require Import GenericFacts SpecSerde HtmlFacts.
Import ListNotations.
Open Scope list_scope.

Section Facts.
  Variable gone : str -> Prop.
  Hypothesis Hgone : forall k, gone k -> k = lit "user_data".
  Local Notation rw := (rewritten gone).
  Local Notation rwf := (rewritten_fields gone).

  Definition reads_as {A B} (enc : A -> json) (dec : json -> option B) (a : A) (b : B) : Prop := forall j, rw (enc a) j -> dec j = Some b.

  (** ** Fields *)
  Lemma find_cons : forall A (f : json -> option A) k k' v fs, find_field f k ((k', v) :: fs) =
    if str_eqb k' k then match find_field f k fs with Absent => Once (f v) | _ => Twice end else find_field f k fs.
  Proof. reflexivity. Qed.
  Lemma find_none : forall A (f : json -> option A) k fs, ~ In k (map fst fs) -> find_field f k fs = Absent.
  Proof.
    intros A f k fs. induction fs as [|[k' v] fs IH]; [reflexivity|]. intro N. rewrite find_cons. cbn [map fst In] in N.
    destruct (str_eqb k' k) eqn:E; [apply str_eqb_eq in E; subst; tauto|]. apply IH. tauto.
  Qed.
  Lemma find_once : forall A (f : json -> option A) k v fs, NoDup (map fst fs) -> In (k, v) fs -> find_field f k fs = Once (f v).
  Proof.
    intros A f k v fs. induction fs as [|[k' v'] fs IH]; [intros _ []|]. rewrite find_cons. cbn [map fst]. intros ND I. inversion ND as [|? ? N ND']; subst. destruct I as [I|I].
    - injection I as -> ->. rewrite (proj2 (str_eqb_eq k k) eq_refl). now rewrite (find_none A f k fs N).
    - destruct (str_eqb k' k) eqn:E; [|apply IH; assumption]. apply str_eqb_eq in E. subst. elim N. change k with (fst (k, v)). now apply in_map.
  Qed.
  Lemma rwf_keys : forall fs mid, rwf fs mid -> forall k, In k (map fst mid) -> In k (map fst fs).
  Proof.
    intros fs mid H. induction H as [|k v v' fs fs' N V F IH|k v fs fs' G F IH]; intros x I; [assumption| |]; cbn in *; [intuition|auto].
  Qed.
  Lemma rwf_nodup : forall fs mid, rwf fs mid -> NoDup (map fst fs) -> NoDup (map fst mid).
  Proof.
    intros fs mid H. induction H as [|k v v' fs fs' N V F IH|k v fs fs' G F IH]; intro ND; [constructor| |]; inversion ND as [|? ? X ND']; subst; [|auto].
    cbn. constructor; [|auto]. intro I. apply X. eapply rwf_keys; eassumption.
  Qed.
  Lemma rwf_kept : forall fs mid, rwf fs mid -> forall k v, In (k, v) fs -> ~ gone k -> exists v', In (k, v') mid /\ rw v v'.
  Proof.
    intros fs mid H. induction H as [|k0 v0 v0' fs fs' N V F IH|k0 v0 fs fs' G F IH]; intros k v I K; [destruct I| |].
    - destruct I as [I|I]; [injection I as -> ->; exists v0'; split; [now left|assumption]|]. destruct (IH _ _ I K) as (v' & I' & R). exists v'. split; [now right|assumption].
    - destruct I as [I|I]; [injection I as -> ->; contradiction|eauto].
  Qed.
  Lemma rwf_gone : forall fs mid, rwf fs mid -> forall k, gone k -> ~ In k (map fst mid).
  Proof.
    intros fs mid H. induction H as [|k0 v0 v0' fs fs' N V F IH|k0 v0 fs fs' G F IH]; intros k K I; [assumption| |now apply (IH k)].
    destruct I as [I|I]; [cbn in I; subst; contradiction|now apply (IH k)].
  Qed.

  Definition has (fs fs' : list (str * json)) : Prop :=
    (forall A B (enc : A -> json) (dec : json -> option B) a b name i m m', In (fld name (enc a)) fs -> ~ gone (lit name) -> reads_as enc dec a b ->
       field m m' dec name i (JObj fs') = Some b) /\
    (forall A (dec : json -> option A) name i m m', gone (lit name) -> field m m' dec name i (JObj fs') = m).
  Lemma obj_fields : forall fs j, rw (JObj fs) j -> NoDup (map fst fs) -> exists fs', j = JObj fs' /\ has fs fs'.
  Proof.
    intros fs j H ND. inversion H as [| | | | |? mid fs' F P]; subst. exists fs'. split; [reflexivity|].
    assert (ND' : NoDup (map fst fs')) by (eapply Permutation_NoDup; [apply Permutation_map, P|eapply rwf_nodup; eassumption]).
    split.
    - intros A B enc dec a b name i m m' I K R. destruct (rwf_kept _ _ F _ _ I K) as (v' & I' & V). unfold field.
      rewrite (find_once _ dec _ _ _ ND' (Permutation_in _ P I')). now apply R.
    - intros A dec name i m m' G. unfold field. rewrite find_none; [reflexivity|]. intro I. apply (rwf_gone _ _ F _ G).
      eapply Permutation_in; [apply Permutation_map, Permutation_sym, P|exact I].
  Qed.
  Lemma obj_variant : forall tag body j, rw (s_variant tag body) j -> ~ gone (lit tag) -> exists v, j = JObj [(lit tag, v)] /\ rw body v.
  Proof.
    intros tag body j H K. inversion H as [| | | | |? mid fs' F P]; subst. inversion F as [|k v v' fs fs'' N V F' |k v fs fs'' G F']; subst; [|contradiction].
    inversion F'; subst. apply Permutation_length_1_inv in P. subst. eauto.
  Qed.
  (** ** Values *)
  Lemma reads_str : forall s, reads_as JStr r_str s s.
  Proof. intros s j H. now inversion H. Qed.
  Lemma reads_opt : forall A (enc : A -> json) dec, (forall a, enc a <> JNull) -> forall o, (forall a, o = Some a -> reads_as enc dec a a) -> reads_as (s_opt enc) (r_opt dec) o o.
  Proof.
    intros A enc dec N [a|] R j H; cbn in H; [|now inversion H]. specialize (R a eq_refl j H). unfold r_opt. destruct j; try (now rewrite R).
    elim (N a). now inversion H.
  Qed.
  Lemma reads_ostr : forall o, reads_as (s_opt JStr) (r_opt r_str) o o.
  Proof. intro o. apply reads_opt; [discriminate|]. intros a _. apply reads_str. Qed.
  Lemma reads_all : forall A B (enc : A -> json) (dec : json -> option B) (out : A -> B) l, Forall (fun a => reads_as enc dec a (out a)) l ->
    forall js, Forall2 rw (map enc l) js -> r_all dec js = Some (map out l).
  Proof.
    intros A B enc dec out l H. induction H as [|a l R _ IH]; intros js F; inversion F; subst; [reflexivity|]. cbn. rewrite R by assumption.
    fold (r_all dec). now rewrite IH.
  Qed.
  Lemma reads_vec_map : forall A B (enc : A -> json) (dec : json -> option B) (out : A -> B) l, Forall (fun a => reads_as enc dec a (out a)) l -> reads_as (s_vec enc) (r_vec dec) l (map out l).
  Proof. intros A B enc dec out l H j J. inversion J; subst. cbn. eapply reads_all; eassumption. Qed.
  Lemma reads_vec : forall A (enc : A -> json) dec l, (forall a, In a l -> reads_as enc dec a a) -> reads_as (s_vec enc) (r_vec dec) l l.
  Proof.
    intros A enc dec l H. rewrite <- (map_id l) at 2. apply reads_vec_map. now apply Forall_forall.
  Qed.
  Ltac tags := repeat match goal with |- context [is_tag ?a ?b] => let r := eval vm_compute in (is_tag a b) in change (is_tag a b) with r end; cbn [sized]; cbv iota.
  Ltac open_unit H := inversion H; subst; unfold r_setext, r_bullet, r_task, r_alignment, r_alert_type, r_code_kind, unit_tag; cbn [unit_tag]; tags; try reflexivity.
  Lemma reads_num : forall m n, (n <= m)%N -> reads_as JNum (r_num m) n n.
  Proof. intros m n L j H. inversion H; subst. cbn. now rewrite (proj2 (N.leb_le _ _) L). Qed.
  Lemma reads_setext : forall l, reads_as s_setext r_setext l l.
  Proof. intros [] j H; open_unit H. Qed.
  Lemma reads_bullet : forall l, reads_as s_bullet r_bullet l l.
  Proof. intros [] j H; open_unit H. Qed.
  Lemma reads_task : forall l, reads_as s_task r_task l l.
  Proof. intros [] j H; open_unit H. Qed.
  Lemma reads_alignment : forall l, reads_as s_alignment r_alignment l l.
  Proof. intros [] j H; open_unit H. Qed.
  Ltac nogone := let X := fresh in intro X; apply Hgone in X; discriminate X.
  Ltac variant H v V := apply obj_variant in H as (v & -> & V); [|nogone].
  Ltac nodup := cbn [map fst fld]; repeat (apply NoDup_cons; [cbn [In]; let X := fresh in intro X; repeat (destruct X as [X|X]; [discriminate X|]); exact X|]); apply NoDup_nil.
  Lemma reads_heading_kind : forall k, match k with Atx n => (n < 2 ^ 8)%N | _ => True end -> reads_as s_heading_kind r_heading_kind k k.
  Proof.
    intros [n|l] K j H; variant H v V; unfold r_heading_kind; tags.
    - rewrite (reads_num 255 n) by (try assumption; lia). reflexivity.
    - now rewrite (reads_setext l v V).
  Qed.
  Ltac struct H fs F := apply obj_fields in H as (fs & -> & F); [|nodup].
  Ltac inlist := cbn [In]; repeat (first [left; reflexivity | right]).
  Lemma reads_list_kind : forall k, match k with Ordered n => (n < 2 ^ 64)%N | _ => True end -> reads_as s_list_kind r_list_kind k k.
  Proof.
    intros [n|l] K j H; variant H v V; unfold r_list_kind; tags.
    - struct V fs F. cbn [sized]. rewrite (proj1 F _ _ JNum (r_num u64_max) n n); [reflexivity|inlist|nogone|]. apply reads_num. unfold u64_max. change (2 ^ 64)%N with 18446744073709551616%N in K. lia.
    - now rewrite (reads_bullet l v V).
  Qed.
  Lemma reads_code_kind : forall k, reads_as s_code_kind r_code_kind k k.
  Proof.
    intros [|info] j H; [open_unit H|]. variant H v V. struct V fs F. unfold r_code_kind. cbn [unit_tag]. tags. cbn [sized].
    now rewrite (proj1 F _ _ (s_opt JStr) (r_opt r_str) info info _ _ _ _ ltac:(inlist) ltac:(nogone) (reads_ostr info)).
  Qed.
  Lemma reads_alert_type : forall k, reads_as s_alert_type r_alert_type k k.
  Proof.
    intros k j H. destruct k; try (open_unit H; fail). variant H v V. inversion V; subst. unfold r_alert_type. cbn [unit_tag]. tags. reflexivity.
  Qed.

  Ltac get F enc dec a pf := rewrite (proj1 F _ _ enc dec a a _ _ _ _ ltac:(inlist) ltac:(nogone) pf).
  (** ** The plain tree *)
  Lemma reads_image : forall im, reads_as s_image r_image im im.
  Proof.
    intros [d t a] j H. struct H fs F. unfold r_image. cbn [sized].
    get F JStr r_str d (reads_str d). get F (s_opt JStr) (r_opt r_str) t (reads_ostr t). now get F JStr r_str a (reads_str a).
  Qed.
  Lemma reads_inline : forall i, reads_as s_inline r_inline i i.
  Proof.
    assert (L : forall c, Forall (fun i => reads_as s_inline r_inline i i) c -> reads_as (s_vec s_inline) (r_vec r_inline) c c).
    { intros c H. apply reads_vec. now apply Forall_forall. }
    intro i. induction i as [s| |s|s|d t c IH|l t IHl IHt|im|c IH|c IH|c IH|s|s|] using inline_ind'; intros j H; cbn [s_inline] in H;
      try (inversion H; subst; cbn [r_inline]; tags; reflexivity); variant H v V;
      try (inversion V; subst; cbn [r_inline]; tags; reflexivity).
    - struct V fs F. cbn [r_inline]. tags. get F JStr r_str d (reads_str d). get F (s_opt JStr) (r_opt r_str) t (reads_ostr t).
      now get F (s_vec s_inline) (r_vec r_inline) c (L c IH).
    - struct V fs F. cbn [r_inline]. tags. get F (s_vec s_inline) (r_vec r_inline) l (L l IHl). now get F (s_vec s_inline) (r_vec r_inline) t (L t IHt).
    - cbn [r_inline]. tags. now rewrite (reads_image im v V).
    - apply (L c IH) in V. cbn [r_inline]. tags. unfold r_vec in V. destruct v; try discriminate. now rewrite V.
    - apply (L c IH) in V. cbn [r_inline]. tags. unfold r_vec in V. destruct v; try discriminate. now rewrite V.
    - apply (L c IH) in V. cbn [r_inline]. tags. unfold r_vec in V. destruct v; try discriminate. now rewrite V.
  Qed.
  Lemma reads_inlines : forall c, reads_as s_inlines r_inlines c c.
  Proof. intro c. apply reads_vec. intros i _. apply reads_inline. Qed.
  Lemma reads_heading : forall h, machine_number (BHeading h) -> reads_as s_heading r_heading h h.
  Proof.
    intros [k c] M j H. struct H fs F. unfold r_heading. cbn [sized]. get F s_heading_kind r_heading_kind k (reads_heading_kind k M).
    now get F s_inlines r_inlines c (reads_inlines c).
  Qed.
  Lemma reads_code_block : forall c, reads_as s_code_block r_code_block c c.
  Proof.
    intros [k l] j H. struct H fs F. unfold r_code_block. cbn [sized]. get F s_code_kind r_code_kind k (reads_code_kind k).
    now get F JStr r_str l (reads_str l).
  Qed.
  Lemma reads_link_definition : forall c, reads_as s_link_definition r_link_definition c c.
  Proof.
    intros [l d t] j H. struct H fs F. unfold r_link_definition. cbn [sized]. get F s_inlines r_inlines l (reads_inlines l).
    get F JStr r_str d (reads_str d). now get F (s_opt JStr) (r_opt r_str) t (reads_ostr t).
  Qed.
  Lemma reads_alignments : forall l, reads_as (s_vec s_alignment) (r_vec r_alignment) l l.
  Proof. intro l. apply reads_vec. intros i _. apply reads_alignment. Qed.
  Lemma reads_table : forall c, reads_as s_table r_table c c.
  Proof.
    intros [r al] j H. struct H fs F. unfold r_table. cbn [sized].
    assert (R : reads_as (s_vec (s_vec s_inlines)) (r_vec (r_vec r_inlines)) r r).
    { apply reads_vec. intros row _. apply reads_vec. intros c _. apply reads_inlines. }
    get F (s_vec (s_vec s_inlines)) (r_vec (r_vec r_inlines)) r R. now get F (s_vec s_alignment) (r_vec r_alignment) al (reads_alignments al).
  Qed.
  Definition s_item (it : list_item) : json :=
    match it with ListItem t bs => JObj [fld "task" (s_opt s_task t); fld "blocks" (JArr (map s_block bs))] end.
  Definition r_item (y : json) : option list_item :=
    if sized 2 y then
        t <? maybe r_task "task" 0 y ;;
        bs <? need (fun z => match z with JArr l => r_all r_block l | _ => None end) "blocks" 1 y ;;
        Some (ListItem t bs)
    else None.
  Lemma reads_otask : forall t, reads_as (s_opt s_task) (r_opt r_task) t t.
  Proof. intro t. apply reads_opt; [intros []; discriminate|]. intros x _. apply reads_task. Qed.
  Definition numbers (b : block) : Prop := forall b', In b' (block_preorder b) -> machine_number b'.
  Lemma numbers_in : forall bs, (forall b', In b' (flat_map block_preorder bs) -> machine_number b') -> Forall numbers bs.
  Proof. intros bs H. apply Forall_forall. intros b I b' I'. apply H. apply in_flat_map. eauto. Qed.
  Lemma reads_blocks : forall bs, Forall (fun b => numbers b -> reads_as s_block r_block b b) bs -> Forall numbers bs -> reads_as (s_vec s_block) (r_vec r_block) bs bs.
  Proof. intros bs H N. apply reads_vec. intros b I. rewrite Forall_forall in H, N. auto. Qed.
  Lemma reads_block : forall b, numbers b -> reads_as s_block r_block b b.
  Proof.
    intro b. induction b as [c|h| |bs IH|k items IH|c|s|d|t|l bs IH|t bs IH|] using block_ind'; intros N j H; cbn [s_block] in H;
      try (inversion H; subst; cbn [r_block]; tags; reflexivity); variant H v V;
      try (inversion V; subst; cbn [r_block]; tags; reflexivity); pose proof (N _ (or_introl eq_refl)) as M;
      pose proof (fun b' I => N b' (or_intror I)) as NC; cbn [block_preorder] in NC; clear N.
    - cbn [r_block]. tags. now rewrite (reads_inlines c v V).
    - cbn [r_block]. tags. now rewrite (reads_heading h M v V).
    - apply (reads_blocks bs IH (numbers_in bs NC)) in V. cbn [r_block]. tags. unfold r_vec in V. destruct v; try discriminate. now rewrite V.
    - struct V fs F. cbn [r_block]. tags. get F s_list_kind r_list_kind k (reads_list_kind k M).
      assert (R : reads_as (s_vec s_item) (r_vec r_item) items items).
      { apply reads_vec. intros [t bs] I j V. struct V gs G. unfold r_item. get G (s_opt s_task) (r_opt r_task) t (reads_otask t).
        rewrite Forall_forall in IH. specialize (IH _ I). cbn [li_blocks] in IH.
        assert (NB : Forall numbers bs) by (apply numbers_in; intros b' I'; apply NC; apply in_flat_map; eauto).
        now get G (s_vec s_block) (r_vec r_block) bs (reads_blocks bs IH NB). }
      now get F (s_vec s_item) (r_vec r_item) items R.
    - cbn [r_block]. tags. now rewrite (reads_code_block c v V).
    - cbn [r_block]. tags. now rewrite (reads_link_definition d v V).
    - cbn [r_block]. tags. now rewrite (reads_table t v V).
    - struct V fs F. cbn [r_block]. tags. get F JStr r_str l (reads_str l). now get F (s_vec s_block) (r_vec r_block) bs (reads_blocks bs IH (numbers_in bs NC)).
    - struct V fs F. cbn [r_block]. tags. get F s_alert_type r_alert_type t (reads_alert_type t). now get F (s_vec s_block) (r_vec r_block) bs (reads_blocks bs IH (numbers_in bs NC)).
  Qed.
  Lemma reads_document : forall d, machine_numbers d -> reads_as s_document r_document d d.
  Proof.
    intros [bs] N j H. struct H fs F. unfold r_document. cbn [sized].
    assert (R : reads_as (s_vec s_block) (r_vec r_block) bs bs).
    { apply reads_blocks; [apply Forall_forall; intros b _; apply reads_block|]. now apply numbers_in. }
    now get F (s_vec s_block) (r_vec r_block) bs R.
  Qed.

  (** ** The tree with user data *)
  Section Data.
    Context {T : Type} (s_data : T -> json) (r_data : json -> option T) (dflt : T) (out : T -> T) (okd : T -> Prop).
    Hypothesis Hdata : (~ gone (lit "user_data") /\ forall t, okd t -> reads_as s_data r_data t (out t)) \/ (gone (lit "user_data") /\ forall t, out t = dflt).
    Fixpoint gm_inline (i : ginline T) : ginline T :=
      match i with
      | GIText s d => GIText s (out d)
      | GILineBreak d => GILineBreak (out d)
      | GICode s d => GICode s (out d)
      | GIHtml s d => GIHtml s (out d)
      | GILink (GLink u t c d) => GILink (GLink u t (map gm_inline c) (out d))
      | GILinkReference (GLinkReference l t d) => GILinkReference (GLinkReference (map gm_inline l) (map gm_inline t) (out d))
      | GIImage (GImage u t a d) => GIImage (GImage u t a (out d))
      | GIEmphasis c d => GIEmphasis (map gm_inline c) (out d)
      | GIStrong c d => GIStrong (map gm_inline c) (out d)
      | GIStrikethrough c d => GIStrikethrough (map gm_inline c) (out d)
      | GIAutolink u d => GIAutolink u (out d)
      | GIFootnoteReference l d => GIFootnoteReference l (out d)
      | GIEmpty d => GIEmpty (out d)
      end.
    Definition gm_inlines := map gm_inline.
    Fixpoint gm_block (b : gblock T) : gblock T :=
      match b with
      | GBParagraph c d => GBParagraph (gm_inlines c) (out d)
      | GBHeading (GHeading k c d) => GBHeading (GHeading k (gm_inlines c) (out d))
      | GBThematicBreak d => GBThematicBreak (out d)
      | GBBlockQuote bs d => GBBlockQuote (map gm_block bs) (out d)
      | GBList (GMkList k items d) =>
          GBList (GMkList k (map (fun it => match it with GListItem t bs d => GListItem t (map gm_block bs) (out d) end) items) (out d))
      | GBCodeBlock (GCodeBlock k l d) => GBCodeBlock (GCodeBlock k l (out d))
      | GBHtmlBlock s d => GBHtmlBlock s (out d)
      | GBDefinition (GLinkDefinition l u t d) => GBDefinition (GLinkDefinition (gm_inlines l) u t (out d))
      | GBTable (GTable r al d) => GBTable (GTable (map (map gm_inlines) r) al (out d))
      | GBFootnoteDefinition (GFootnoteDefinition l bs d) => GBFootnoteDefinition (GFootnoteDefinition l (map gm_block bs) (out d))
      | GBGitHubAlert (GGitHubAlert t bs d) => GBGitHubAlert (GGitHubAlert t (map gm_block bs) (out d))
      | GBEmpty d => GBEmpty (out d)
      end.
    Local Notation si := (s_ginline s_data). Local Notation ri := (r_ginline r_data dflt).
    Local Notation sb := (s_gblock s_data). Local Notation rb := (r_gblock r_data dflt).
    Lemma user_field : forall d i fs fs', okd d -> has fs fs' -> In (data s_data d) fs -> r_user r_data dflt i (JObj fs') = Some (out d).
    Proof.
      intros d i fs fs' K F I. unfold r_user. destruct Hdata as [(N & R)|(G & E)].
      - exact (proj1 F _ _ s_data r_data d (out d) _ _ _ _ I N (R d K)).
      - rewrite (proj2 F _ r_data _ _ _ _ G). now rewrite E.
    Qed.
    Definition okall (l : list T) : Prop := forall t, In t l -> okd t.
    Lemma okall_part : forall A (f : A -> list T) l x, okall (flat_map f l) -> In x l -> okall (f x).
    Proof. intros A f l x H I t J. apply H. apply in_flat_map. eauto. Qed.
    Lemma okall_l : forall l m, okall (l ++ m) -> okall l.
    Proof. intros l m H t I. apply H. apply in_or_app. auto. Qed.
    Lemma okall_r : forall l m, okall (l ++ m) -> okall m.
    Proof. intros l m H t I. apply H. apply in_or_app. auto. Qed.
    Ltac user F d := match goal with K : okd d |- _ => rewrite (user_field d _ _ _ K F ltac:(inlist)) end.
    Ltac oks := repeat match goal with
      | K : okall (_ ++ _) |- _ => let K' := fresh "OK" in pose proof (okall_r _ _ K) as K'; apply okall_l in K
      | K : okall [?d] |- _ => specialize (K d (or_introl eq_refl)) end.
    Ltac nodup ::= cbn [map fst fld data]; repeat (apply NoDup_cons; [cbn [In]; let X := fresh in intro X; repeat (destruct X as [X|X]; [discriminate X|]); exact X|]); apply NoDup_nil.
    Ltac gets F enc dec a b pf := rewrite (proj1 F _ _ enc dec a b _ _ _ _ ltac:(inlist) ltac:(nogone) pf).
    Lemma reads_ginline : forall i, okall (data_inline i) -> reads_as si ri i (gm_inline i).
    Proof.
      assert (L : forall c, Forall (fun i => okall (data_inline i) -> reads_as si ri i (gm_inline i)) c -> okall (flat_map data_inline c) -> reads_as (s_vec si) (r_vec ri) c (map gm_inline c)).
      { intros c H K. apply reads_vec_map. rewrite Forall_forall in *. intros x I. apply (H x I). exact (okall_part _ _ _ _ K I). }
      intro i. induction i as [s d|d|s d|s d|u t c d IH|l t d IHl IHt|[u t a d]|c d IH|c d IH|c d IH|s d|s d|d] using ginline_ind'; intros OK j H; cbn [s_ginline] in H; cbn [data_inline gl_children gl_data glr_label glr_text glr_data gi_data] in OK; oks;
        variant H v V; struct V fs F; cbn [r_ginline gm_inline]; tags.
      - get F JStr r_str s (reads_str s). now user F d.
      - now user F d.
      - get F JStr r_str s (reads_str s). now user F d.
      - get F JStr r_str s (reads_str s). now user F d.
      - get F JStr r_str u (reads_str u). get F (s_opt JStr) (r_opt r_str) t (reads_ostr t). gets F (s_vec si) (r_vec ri) c (map gm_inline c) (L c IH ltac:(assumption)). now user F d.
      - gets F (s_vec si) (r_vec ri) l (map gm_inline l) (L l IHl ltac:(assumption)). gets F (s_vec si) (r_vec ri) t (map gm_inline t) (L t IHt ltac:(assumption)). now user F d.
      - get F JStr r_str u (reads_str u). get F (s_opt JStr) (r_opt r_str) t (reads_ostr t). get F JStr r_str a (reads_str a). now user F d.
      - gets F (s_vec si) (r_vec ri) c (map gm_inline c) (L c IH ltac:(assumption)). now user F d.
      - gets F (s_vec si) (r_vec ri) c (map gm_inline c) (L c IH ltac:(assumption)). now user F d.
      - gets F (s_vec si) (r_vec ri) c (map gm_inline c) (L c IH ltac:(assumption)). now user F d.
      - get F JStr r_str s (reads_str s). now user F d.
      - get F JStr r_str s (reads_str s). now user F d.
      - now user F d.
    Qed.
    Lemma reads_ginlines : forall c, okall (flat_map data_inline c) -> reads_as (s_ginlines s_data) (r_ginlines r_data dflt) c (gm_inlines c).
    Proof. intros c K. apply reads_vec_map. apply Forall_forall. intros i I. apply reads_ginline. exact (okall_part _ _ _ _ K I). Qed.
    Lemma reads_rows : forall r, okall (flat_map (flat_map (flat_map data_inline)) r) -> reads_as (s_vec (s_vec (s_ginlines s_data))) (r_vec (r_vec (r_ginlines r_data dflt))) r (map (map gm_inlines) r).
    Proof.
      intros r K. apply reads_vec_map. apply Forall_forall. intros row I. pose proof (okall_part _ _ _ _ K I) as K2.
      apply reads_vec_map. apply Forall_forall. intros c I2. apply reads_ginlines. exact (okall_part _ _ _ _ K2 I2).
    Qed.
    Lemma reads_glist_kind : forall k, match k with GOrdered n => (n < 2 ^ 64)%N | _ => True end -> reads_as s_glist_kind r_glist_kind k k.
    Proof.
      intros k K j H. unfold r_glist_kind. rewrite (reads_list_kind (from_glist_kind k)) by (now destruct k). now destruct k.
    Qed.
    Definition gs_item (it : glist_item T) : json :=
      match it with GListItem t bs d => JObj [fld "task" (s_opt s_task t); fld "blocks" (JArr (map sb bs)); data s_data d] end.
    Definition gr_item (y : json) : option (glist_item T) :=
      if sized 3 y then
          t <? maybe r_task "task" 0 y ;;
          bs <? need (fun z => match z with JArr l => r_all rb l | _ => None end) "blocks" 1 y ;;
          d <? r_user r_data dflt 2 y ;; Some (GListItem t bs d)
      else None.
    Definition gm_item (it : glist_item T) : glist_item T := match it with GListItem t bs d => GListItem t (map gm_block bs) (out d) end.
    Definition gnumbers (b : gblock T) : Prop := numbers (strip_block b).
    Lemma gnumbers_in : forall bs, (forall b', In b' (flat_map block_preorder (map strip_block bs)) -> machine_number b') -> Forall gnumbers bs.
    Proof. intros bs H. apply Forall_forall. intros b I b' I'. apply H. apply in_flat_map. exists (strip_block b). split; [now apply in_map|assumption]. Qed.
    Lemma reads_gblocks : forall bs, Forall (fun b => gnumbers b -> okall (data_block b) -> reads_as sb rb b (gm_block b)) bs -> Forall gnumbers bs -> okall (flat_map data_block bs) -> reads_as (s_vec sb) (r_vec rb) bs (map gm_block bs).
    Proof. intros bs H N K. apply reads_vec_map. apply Forall_forall. intros b I. rewrite Forall_forall in H, N. apply H; auto. exact (okall_part _ _ _ _ K I). Qed.
    Lemma reads_gblock : forall b, gnumbers b -> okall (data_block b) -> reads_as sb rb b (gm_block b).
    Proof.
      intro b. induction b as [c d|[k c d]|d|bs d IH|k items d IH|[k l d]|s d|[l u t d]|[r al d]|l bs d IH|t bs d IH|d] using gblock_ind'; intros N OK j H; cbn [s_gblock] in H; cbn [data_block gh_content gh_data gll_items gll_data gcb_data gld_label gld_data gt_rows gt_data gfd_blocks gfd_data gga_blocks gga_data] in OK; oks;
        variant H v V; unfold s_gheading, s_gcode_block, s_glink_definition, s_gtable in V; struct V fs F;
        pose proof (N _ (or_introl eq_refl)) as M; pose proof (fun b' I => N b' (or_intror I)) as NC; cbn [block_preorder strip_block] in NC, M; clear N;
        cbn [r_gblock gm_block]; tags; cbn [gh_kind gh_content gh_data gcb_kind gcb_literal gcb_data gld_label gld_destination gld_title gld_data gt_rows gt_alignments gt_data] in F.
      - gets F (s_ginlines s_data) (r_ginlines r_data dflt) c (gm_inlines c) (reads_ginlines c ltac:(assumption)). now user F d.
      - unfold r_gheading. cbn [sized]. cbn [gh_kind gh_content machine_number] in M. get F s_heading_kind r_heading_kind k (reads_heading_kind k M).
        gets F (s_ginlines s_data) (r_ginlines r_data dflt) c (gm_inlines c) (reads_ginlines c ltac:(assumption)). now user F d.
      - now user F d.
      - gets F (s_vec sb) (r_vec rb) bs (map gm_block bs) (reads_gblocks bs IH (gnumbers_in bs NC) ltac:(assumption)). now user F d.
      - assert (KK : match k with GOrdered n => (n < 2 ^ 64)%N | _ => True end) by (now destruct k). get F s_glist_kind r_glist_kind k (reads_glist_kind k KK).
        assert (R : reads_as (s_vec gs_item) (r_vec gr_item) items (map gm_item items)).
        { apply reads_vec_map. apply Forall_forall. intros [t bs d'] I j V. struct V gs G. unfold gr_item, gm_item. get G (s_opt s_task) (r_opt r_task) t (reads_otask t).
          rewrite Forall_forall in IH. specialize (IH _ I). cbn [gli_blocks] in IH.
          pose proof (okall_part _ _ _ _ OK I) as OKI. cbn [gli_blocks gli_data] in OKI. oks.
          assert (NB : Forall gnumbers bs).
          { apply gnumbers_in. intros b' I'. apply NC. cbn [l_items]. apply in_flat_map. eexists. split; [apply in_map, I|]. exact I'. }
          gets G (s_vec sb) (r_vec rb) bs (map gm_block bs) (reads_gblocks bs IH NB ltac:(assumption)). now user G d'. }
        gets F (s_vec gs_item) (r_vec gr_item) items (map gm_item items) R. now user F d.
      - unfold r_gcode_block. cbn [sized]. get F s_code_kind r_code_kind k (reads_code_kind k). get F JStr r_str l (reads_str l). now user F d.
      - get F JStr r_str s (reads_str s). now user F d.
      - unfold r_glink_definition. cbn [sized]. gets F (s_ginlines s_data) (r_ginlines r_data dflt) l (gm_inlines l) (reads_ginlines l ltac:(assumption)).
        get F JStr r_str u (reads_str u). get F (s_opt JStr) (r_opt r_str) t (reads_ostr t). now user F d.
      - unfold r_gtable. cbn [sized]. gets F (s_vec (s_vec (s_ginlines s_data))) (r_vec (r_vec (r_ginlines r_data dflt))) r (map (map gm_inlines) r) (reads_rows r ltac:(assumption)).
        get F (s_vec s_alignment) (r_vec r_alignment) al (reads_alignments al). now user F d.
      - get F JStr r_str l (reads_str l). gets F (s_vec sb) (r_vec rb) bs (map gm_block bs) (reads_gblocks bs IH (gnumbers_in bs NC) ltac:(assumption)). now user F d.
      - get F s_alert_type r_alert_type t (reads_alert_type t). gets F (s_vec sb) (r_vec rb) bs (map gm_block bs) (reads_gblocks bs IH (gnumbers_in bs NC) ltac:(assumption)). now user F d.
      - now user F d.
    Qed.
    Lemma reads_gdocument : forall g, machine_numbers (strip_data g) -> okall (data_document g) ->
      reads_as (s_gdocument s_data) (r_gdocument r_data dflt) g (GDocument (map gm_block (gd_blocks g)) (out (gd_data g))).
    Proof.
      intros [bs d] N OK j H. unfold data_document in OK. cbn [gd_blocks gd_data] in OK. oks. struct H fs F. unfold r_gdocument. cbn [sized gd_blocks gd_data] in *.
      assert (R : reads_as (s_vec sb) (r_vec rb) bs (map gm_block bs)).
      { apply reads_gblocks; [apply Forall_forall; intros b _; apply reads_gblock|now apply gnumbers_in|assumption]. }
      gets F (s_vec sb) (r_vec rb) bs (map gm_block bs) R. now user F d.
    Qed.
  End Data.
End Facts.

Lemma map_same : forall A (f : A -> A) l, Forall (fun a => f a = a) l -> map f l = l.
Proof. intros A f l H. induction H as [|a l E _ IH]; [reflexivity|]. cbn. now rewrite E, IH. Qed.
Lemma map_pair : forall A B (f g : A -> B) l, Forall (fun a => f a = g a) l -> map f l = map g l.
Proof. intros A B f g l H. induction H as [|a l E _ IH]; [reflexivity|]. cbn. now rewrite E, IH. Qed.
Lemma gm_inline_id : forall T (i : ginline T), gm_inline (fun t => t) i = i.
Proof.
  intros T i. induction i as [s d|d|s d|s d|u t c d IH|l t d IHl IHt|[u t a d]|c d IH|c d IH|c d IH|s d|s d|d] using ginline_ind'; cbn [gm_inline]; try reflexivity;
    repeat match goal with H : Forall _ _ |- _ => apply map_same in H; rewrite H; clear H end; reflexivity.
Qed.
Lemma gm_inlines_id : forall T (c : list (ginline T)), gm_inlines (fun t => t) c = c.
Proof. intros T c. apply map_same. apply Forall_forall. intros i _. apply gm_inline_id. Qed.
Lemma gm_block_id : forall T (b : gblock T), gm_block (fun t => t) b = b.
Proof.
  intros T b. induction b as [c d|[k c d]|d|bs d IH|k items d IH|[k l d]|s d|[l u t d]|[r al d]|l bs d IH|t bs d IH|d] using gblock_ind'; cbn [gm_block];
    rewrite ?gm_inlines_id; try reflexivity; try (apply map_same in IH; now rewrite IH).
  - do 2 f_equal. apply map_same. eapply Forall_impl; [|exact IH]. intros [t bs d'] H. cbn in *. apply map_same in H. now rewrite H.
  - do 2 f_equal. apply map_same. apply Forall_forall. intros row _. apply map_same. apply Forall_forall. intros c _. apply gm_inlines_id.
Qed.
Lemma gm_inline_const : forall T (d : T) i, gm_inline (fun _ => d) i = with_data_inline d (strip_inline i) d.
Proof.
  intros T d0 i. induction i as [s d|d|s d|s d|u t c d IH|l t d IHl IHt|[u t a d]|c d IH|c d IH|c d IH|s d|s d|d] using ginline_ind'; cbn; try reflexivity; rewrite !map_map;
    repeat match goal with H : Forall _ _ |- _ => apply map_pair in H; rewrite H; clear H end; reflexivity.
Qed.
Lemma gm_inlines_const : forall T (d : T) c, gm_inlines (fun _ => d) c = with_data_inlines d (map strip_inline c).
Proof. intros T d c. unfold gm_inlines, with_data_inlines. rewrite map_map. apply map_pair. apply Forall_forall. intros i _. apply gm_inline_const. Qed.
Lemma gm_block_const : forall T (d : T) b, gm_block (fun _ => d) b = with_data_block d (strip_block b) d.
Proof.
  intros T d0 b. induction b as [c d|[k c d]|d|bs d IH|k items d IH|[k l d]|s d|[l u t d]|[r al d]|l bs d IH|t bs d IH|d] using gblock_ind';
    cbn [gm_block strip_block with_data_block gh_kind gh_content h_kind h_content gld_label gld_destination gld_title ld_label ld_destination ld_title]; rewrite ?gm_inlines_const; try reflexivity;
    try (rewrite map_map; apply map_pair in IH; now rewrite IH).
  - destruct k; cbn [to_glist_kind from_glist_kind l_kind l_items gll_kind gll_items gll_data]; rewrite !map_map; do 2 f_equal; apply map_pair; (eapply Forall_impl; [|exact IH]); intros [t bs d'] H; cbn in *; apply map_pair in H; rewrite H; now rewrite map_map.
  - cbn. do 2 f_equal. rewrite map_map. apply map_pair. apply Forall_forall. intros row _. rewrite map_map. apply map_pair. apply Forall_forall. intros c _. apply gm_inlines_const.
  - cbn. apply map_pair in IH. rewrite IH. now rewrite map_map.
  - cbn. apply map_pair in IH. rewrite IH. now rewrite map_map.
Qed.
