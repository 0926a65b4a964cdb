(** Reading printed alerts. *)
From Coq Require Import String Lia.
From Verif Require SyntaxDoc.
From Verif Require Export RoundCode.
Import ListNotations.
Open Scope list_scope.
Local Notation len := (@List.length _).

(** a quote with the given lines behind ">" *)
Definition behind (ls : list str) : str := join [c_nl] (map (cons (ch ">")) ls).
Lemma behind_lines : forall k ls, ls <> [] -> Forall (Forall line_char) ls -> pre k (behind ls) = join [c_nl] (map (fun l => rep k c_sp ++ ch ">" :: l) ls).
Proof.
  intros k ls N H. unfold pre, behind. rewrite join_split; [now rewrite map_map|intro E; now apply map_eq_nil in E|]. apply Forall_map. eapply Forall_impl; [|exact H].
  intros l F [E|I]; [discriminate|]. rewrite Forall_forall in F. now destruct (F _ I).
Qed.
Lemma behind_reads : forall k ls r, k <= 3 -> ls <> [] -> Forall (Forall line_char) ls -> blank_tail r ->
  p_quote_lines (join [c_nl] (map (fun l => rep k c_sp ++ ch ">" :: l) ls) ++ r) = Ok (tl r) ls.
Proof.
  intros k ls r Hk Hne Hl Hr. unfold p_quote_lines. set (p := preceded p_quote_prefix (line_terminated not_eof_or_eol0)).
  assert (P1 : forall l t, Forall line_char l -> stops t -> p ((rep k c_sp ++ ch ">" :: l) ++ t) = Ok (tl t) l).
  { intros l t F St. unfold p, p_quote_prefix, preceded, bind. rewrite <- app_assoc. cbn [app]. rewrite up3 by (exact Hk || now apply no_space_cons).
    unfold chr. rewrite char_same. apply (lt_stop _ _ _ t); [|exact St]. now apply (not_eol0_line l). }
  assert (P2 : p (tl r) = Err).
  { unfold p, preceded at 1. apply bind_e. unfold p_quote_prefix, preceded, bind. destruct (blank_up3 r Hr) as (s & x & -> & S). apply blank_chr; [exact S|discriminate|discriminate]. }
  assert (G : forall ls n, Forall (Forall line_char) ls -> ls <> [] -> len (join [c_nl] (map (fun l => rep k c_sp ++ ch ">" :: l) ls) ++ r) < n ->
            many0_go n p (join [c_nl] (map (fun l => rep k c_sp ++ ch ">" :: l) ls) ++ r) = Ok (tl r) ls).
  { clear ls Hl Hne. induction ls as [|l ls IH]; intros n F Ne Hn; [congruence|]. inversion F; subst. destruct n as [|n]; [lia|]. cbn [many0_go].
    destruct ls as [|l2 ls].
    - cbn [map join] in *. rewrite P1 by (assumption || now apply blank_tail_stops).
      assert (L : len (tl r) <= len r) by (destruct r; cbn; lia).
      match goal with |- context [(?a =? ?b)] => destruct (Nat.eqb_spec a b) as [Y|_] end.
      { exfalso. revert Y. autorewrite with lens. unfold str, char in *. intro Y. lia. }
      rewrite (many0_end _ _ _ P2); [reflexivity|]. revert Hn. autorewrite with lens. unfold str, char in *. intro Y. lia.
    - cbn [map] in *. rewrite join_cons in * by discriminate. rewrite <- (app_assoc _ ([c_nl] ++ _)) in *. rewrite P1 by (assumption || reflexivity). cbn [tl app].
      match goal with |- context [(?a =? ?b)] => destruct (Nat.eqb_spec a b) as [Y|_] end.
      { exfalso. revert Y. autorewrite with lens. intro Y. lia. }
      rewrite IH; [reflexivity|assumption|discriminate|]. revert Hn. autorewrite with lens. cbn [map]. lia. }
  destruct ls as [|l ls]; [congruence|]. inversion Hl; subst. unfold many1, bind. destruct ls as [|l2 ls].
  - cbn [map join]. rewrite P1 by (assumption || now apply blank_tail_stops). unfold pmap, bind, many0.
    rewrite (many0_end _ _ _ P2) by lia. reflexivity.
  - cbn [map]. rewrite join_cons by discriminate. rewrite <- (app_assoc _ ([c_nl] ++ _)). rewrite P1 by (assumption || reflexivity). cbn [tl app]. unfold pmap, bind, many0.
    change ((rep k c_sp ++ ch ">" :: l2) :: map (fun l => rep k c_sp ++ ch ">" :: l) ls) with (map (fun l => rep k c_sp ++ ch ">" :: l) (l2 :: ls)).
    rewrite G; [reflexivity|assumption|discriminate|lia].
Qed.
Lemma bracket_not_blank : forall s, ~ blank (c_sp :: ch "[" :: s).
Proof. intros s B. inversion B as [|c t _ B2| |]; subst. inversion B2 as [|c t E _| |]. destruct E; discriminate. Qed.

Section Alert.
Variables (entities : str -> option str) (punct : char -> bool) (upper : char -> str).
Let cfg := default_config entities punct upper.
Local Notation rec := (block_ cfg).
Local Notation reads := (reads entities punct upper).
Local Notation reads_at := (reads_at entities punct upper).
Local Notation alts := (alts entities punct upper).
Local Notation starters := (starters entities punct upper).

Lemma label_ascii : forall s, identifier s -> Forall (fun c => is_ascii c = true) s.
Proof.
  assert (X : forall c, is_alnum c = true -> is_ascii c = true).
  { intros c. unfold is_alnum, is_alpha, is_upper, is_lower, is_digit, is_ascii. intros H. apply N.ltb_lt.
    rewrite !Bool.orb_true_iff, !Bool.andb_true_iff, !N.leb_le in H. unfold char in *. lia. }
  intros s (c & t & -> & Hc & Ht). constructor; [apply X; unfold is_alnum; now rewrite Hc|]. eapply Forall_impl; [|exact Ht]. intros x [Hx| ->]; [now apply X|reflexivity].
Qed.
Lemma label_same : forall s, identifier s -> map to_upper_ascii s = s -> alert_label upper (Custom s) = s.
Proof.
  intros s Hi E. cbn [alert_label]. rewrite <- E at 2. pose proof (label_ascii s Hi) as F. clear E Hi. induction F as [|c s Hc F IH]; [reflexivity|]. cbn [flat_map map]. rewrite Hc.
  now rewrite IH.
Qed.
Lemma label_line : forall ty, alert_type_ok ty -> Forall line_char (alert_label upper ty).
Proof.
  assert (LC : forall c, line_char c <-> c <> c_nl /\ c <> c_cr) by (intro; reflexivity).
  intros [| | | | |s]; try (intros _; cbn; repeat constructor; discriminate). intros (Hi & E & _). rewrite label_same by assumption. destruct Hi as (c & t & -> & Hc & Ht).
  assert (X : forall c, is_alnum c = true -> line_char c) by (intros x Hx; split; intros ->; discriminate).
  constructor; [apply X; unfold is_alnum; now rewrite Hc|]. eapply Forall_impl; [|exact Ht]. intros x [Hx| ->]; [now apply X|split; discriminate].
Qed.
Lemma label_read : forall ty, alert_type_ok ty -> parse_alert_marker cfg (lit "[!" ++ alert_label upper ty ++ lit "]") = Some ty.
Proof.
  assert (ST : forall name ty, In (name, ty) standard_alerts -> map to_upper_ascii name = name -> parse_alert_marker cfg (lit "[!" ++ name ++ lit "]") = Some ty).
  { intros name ty I E. apply (alert_standard cfg name ty name [] [] I E); constructor. }
  intros [| | | | |s] H; try (apply ST; [cbn; tauto|reflexivity]). destruct H as (Hi & E & N). rewrite label_same by assumption. rewrite alert_custom; [now rewrite E|exact Hi|now rewrite E].
Qed.
Lemma trim_bracket : forall s, trim (ch "[" :: s ++ lit "]") = ch "[" :: s ++ lit "]".
Proof. intros s. rewrite <- (app_nil_r (ch "[" :: s ++ lit "]")) at 1. apply (trim_frame [] [] (ch "[") s (ch "]")); try reflexivity; constructor. Qed.

(** ** The block *)
Lemma reads_alert : forall k ty ls w j m os bs, k <= 3 -> alert_type_ok ty -> Forall (Forall line_char) ls ->
  join [c_nl] ls = join (sepk j) os -> Forall2 (reads_at w j m) os bs -> linked w j m bs os ->
  reads (pre k (behind ((c_sp :: lit "[!" ++ alert_label upper ty ++ lit "]") :: ls))) (BGitHubAlert (GitHubAlert ty bs)).
Proof.
  intros k ty ls w j m os bs Hk Ht Hl HE Hb Hb2. set (first := lit "[!" ++ alert_label upper ty ++ lit "]").
  assert (HF : Forall line_char first).
  { unfold first. apply Forall_app. split; [repeat constructor; discriminate|]. apply Forall_app. split; [now apply label_line|repeat constructor; discriminate]. }
  assert (HL : Forall (Forall line_char) ((c_sp :: first) :: ls)).
  { constructor; [constructor; [split; discriminate|exact HF]|exact Hl]. }
  rewrite behind_lines by (discriminate || exact HL).
  assert (Hi : inked (ch ">")) by (repeat split; discriminate).
  assert (X : forall r, exists t, join [c_nl] (map (fun l => rep k c_sp ++ ch ">" :: l) ((c_sp :: first) :: ls)) ++ r = rep k c_sp ++ ch ">" :: c_sp :: first ++ t /\ (stops r -> stops t)).
  { intros r. cbn [map]. rewrite join_flat. rewrite <- !app_assoc. cbn [app]. rewrite <- ?app_assoc. eexists. split; [reflexivity|]. destruct ls; [auto|reflexivity]. }
  split. { destruct (X []) as (t & E & _). rewrite app_nil_r in E. exists k, (ch ">"). eexists. split; [exact E|exact Hi]. }
  intros r Hr. pose proof (behind_reads k ((c_sp :: first) :: ls) r Hk ltac:(discriminate) HL Hr) as Q. destruct (X r) as (t & E & St). specialize (St (blank_tail_stops r Hr)). rewrite E in *. clear X E.
  assert (B : exists x, p_blockquote rec (rep k c_sp ++ ch ">" :: c_sp :: first ++ t) = Ok (tl r) x).
  { unfold p_blockquote, bind. rewrite Q. set (inner := join [c_nl] ((c_sp :: first) :: ls)).
    assert (NB : ~ blank inner) by (unfold inner; rewrite join_flat; apply bracket_not_blank).
    destruct (SyntaxDoc.RB_total cfg (cfg_ok entities punct upper) inner) as (x & RB). exists x.
    eapply (SyntaxFacts.exact_ok); [apply (SyntaxDoc.exact_nested1 cfg (cfg_ok entities punct upper)); discriminate|]. split; [reflexivity|]. now split. }
  destruct B as (x & B).
  assert (A : p_github_alert cfg rec (rep k c_sp ++ ch ">" :: c_sp :: first ++ t) = Ok (tl r) [BGitHubAlert (GitHubAlert ty bs)]).
  { unfold p_github_alert. unfold bind at 1. unfold peek. unfold preceded at 1, bind at 1.
    assert (Y : pair_ p_quote_prefix (opt (chr " ")) (rep k c_sp ++ ch ">" :: c_sp :: first ++ t) = Ok (first ++ t) (ch ">", Some c_sp)).
    { eapply pair_ok; [unfold p_quote_prefix, preceded, bind; rewrite up3 by (exact Hk || now apply no_space_cons); apply char_same|]. unfold opt. rewrite sp_char. reflexivity. }
    rewrite Y. rewrite (lt_stop _ _ _ t first); [|now apply not_eol0_line|exact St].
    unfold first at 1. change (lit "[!" ++ alert_label upper ty ++ lit "]") with (ch "[" :: (ch "!" :: alert_label upper ty) ++ lit "]"). rewrite trim_bracket.
    change (ch "[" :: (ch "!" :: alert_label upper ty) ++ lit "]") with (lit "[!" ++ alert_label upper ty ++ lit "]"). rewrite label_read by exact Ht.
    unfold bind at 1. rewrite Q. cbn [tl]. rewrite HE. unfold bind at 1. destruct os as [|o os].
    - inversion Hb; subst. reflexivity.
    - inversion Hb as [|? b ? bs' [S _] H]; subst. apply starts_ne in S.
      assert (N : join (sepk j) (o :: os) <> []) by (rewrite join_flat; destruct o; [congruence|discriminate]).
      destruct (join (sepk j) (o :: os)) as [|d v] eqn:Ej; [congruence|]. rewrite <- Ej. unfold pmap, bind, nested, cfg.
      rewrite (many1_reads entities punct upper w j m (o :: os) (b :: bs')); [|exact Hb|exact Hb2|discriminate]. unfold ret. do 4 f_equal.
      clear. induction (b :: bs') as [|y l IH]; [reflexivity|]. cbn. now f_equal. }
  rewrite alts_eq.
  rewrite or_e by (apply one_map_e; apply code_block_e; (assumption || discriminate)).
  rewrite or_e by (apply one_map_e; apply heading_e; try assumption; left; discriminate).
  rewrite or_e.
  2:{ apply one_e. apply no_paragraph; [exact Hi|]. do 3 apply Exists_cons_tl. apply Exists_cons_hd. exists (tl r), tt.
      cbn [conditional_unit default_config b_blockquote]. unfold p_unit, value, pmap, bind, ret. fold cfg. now rewrite B. }
  rewrite or_e by (apply one_e; apply pmap_e; apply thematic_e; (assumption || discriminate)).
  unfold tail_alts. fold cfg. now apply or_ok.
Qed.
End Alert.
