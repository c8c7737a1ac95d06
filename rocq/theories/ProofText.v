(** Uniqueness of equation texts. *)
From Coq Require Import String Ascii List ZArith Bool Arith Lia DecimalString DecimalNat Decimal.
From Verif Require Import Base Num ModelTerm ModelEq ModelFilter SpecEq SpecFilter.
From Coq Require Import List.
Import ListNotations.
Local Open Scope string_scope.

Lemma sapp_assoc (a b c : string) : (a ++ b) ++ c = a ++ b ++ c.
Proof. induction a; cbn; congruence. Qed.
Lemma sapp_nil (a : string) : a ++ "" = a.
Proof. induction a; cbn; congruence. Qed.
Lemma has_app c a b : has_char c (a ++ b) <-> has_char c a \/ has_char c b.
Proof. induction a as [|d a IH]; cbn; [tauto|]. rewrite IH. tauto. Qed.

(** Decimal numbers *)
Lemma digits_only c d : has_char c (NilEmpty.string_of_uint d) -> In c ["0";"1";"2";"3";"4";"5";"6";"7";"8";"9"]%char.
Proof. induction d; cbn [NilEmpty.string_of_uint has_char]; [tauto|..]; (intros [->|H]; [cbn; auto 15|exact (IHd H)]). Qed.
Lemma dec_digits c n : has_char c (dec n) -> In c ["0";"1";"2";"3";"4";"5";"6";"7";"8";"9"]%char.
Proof.
  unfold dec, NilZero.string_of_uint. destruct (Nat.to_uint n) eqn:E; try apply digits_only. cbn. intuition auto.
Qed.
Lemma dec_noblank n : ~ has_char " " (dec n).
Proof. intros H. apply dec_digits in H. cbn in H. decompose [or] H; try discriminate; assumption. Qed.
Lemma dec_nonempty n : dec n <> "".
Proof. unfold dec, NilZero.string_of_uint. destruct (Nat.to_uint n); cbn; discriminate. Qed.
Lemma to_uint_nonnil n : Nat.to_uint n <> Nil.
Proof.
  destruct n; [discriminate|]. intros H. assert (E : Nat.of_uint (Nat.to_uint (S n)) = S n) by apply Unsigned.of_to.
  rewrite H in E. discriminate.
Qed.
Lemma dec_inj a b : dec a = dec b -> a = b.
Proof.
  unfold dec. intros H. apply Unsigned.to_uint_inj.
  pose proof (NilZero.usu _ (to_uint_nonnil a)) as A. pose proof (NilZero.usu _ (to_uint_nonnil b)) as B.
  rewrite H in A. congruence.
Qed.

(** Splitting at a character *)
Fixpoint split_on (c : ascii) (s : string) : list string :=
  match s with
  | "" => [""]
  | String d s => if Ascii.eqb d c then "" :: split_on c s
                  else match split_on c s with w :: ws => String d w :: ws | [] => [] end
  end.
Lemma split_word c w : ~ has_char c w -> split_on c w = [w].
Proof.
  induction w as [|d w IH]; cbn; intros H; [reflexivity|].
  destruct (Ascii.eqb_spec d c) as [->|_]; [tauto|]. rewrite IH; tauto.
Qed.
Lemma split_app c w s : ~ has_char c w -> split_on c (w ++ String c s) = w :: split_on c s.
Proof.
  induction w as [|d w IH]; cbn; intros H; [now rewrite Ascii.eqb_refl|].
  destruct (Ascii.eqb_spec d c) as [->|_]; [tauto|]. rewrite IH; tauto.
Qed.
Definition join (ws : list string) : string := String.concat " " ws.
Lemma join_cons w v ws : join (w :: v :: ws) = w ++ String " " (join (v :: ws)).
Proof. reflexivity. Qed.
Lemma split_join ws : ws <> [] -> List.Forall (fun w => ~ has_char " " w) ws -> split_on " " (join ws) = ws.
Proof.
  induction ws as [|w ws IH]; intros Ne H; [congruence|]. inversion H; subst.
  destruct ws as [|v ws]; [now apply split_word|]. rewrite join_cons, split_app by assumption.
  rewrite IH; [reflexivity|discriminate|assumption].
Qed.
Lemma join_app a b : a <> [] -> b <> [] -> join (a ++ b)%list = join a ++ " " ++ join b.
Proof.
  induction a as [|w a IH]; intros Ha Hb; [congruence|]. destruct a as [|v a].
  - destruct b; [congruence|]. reflexivity.
  - cbn [app]. rewrite join_cons. change (v :: (a ++ b)%list) with ((v :: a) ++ b)%list. rewrite IH by (assumption || discriminate).
    rewrite join_cons, sapp_assoc. reflexivity.
Qed.

(** ** The words of a side *)
Definition body (t : xterm) : string :=
  x_P t ++ (if (0 <=? xt_from t)%Z then "[" ++ dec (Z.to_nat (xt_from t)) ++ "]" else "").
Definition twords (t : xterm) : list string :=
  (if (1 <? xt_n t)%Z then [dec (Z.to_nat (xt_n t))] else []) ++ [body t].
Fixpoint words (l : list xterm) : list string :=
  match l with
  | [] => []
  | [t] => twords t
  | t :: l => twords t ++ "+" :: words l
  end.
Lemma words_cons t u l : words (t :: u :: l) = (twords t ++ "+" :: words (u :: l))%list.
Proof. reflexivity. Qed.
Lemma twords_ne t : twords t <> [].
Proof. unfold twords. destruct (1 <? xt_n t)%Z; discriminate. Qed.
Lemma words_ne t l : words (t :: l) <> [].
Proof.
  destruct l; [apply twords_ne|]. rewrite words_cons. intros H. apply app_eq_nil in H as [_ H]. discriminate.
Qed.
Lemma body_noblank t : simple_name (x_P t) -> ~ has_char " " (body t).
Proof.
  intros (_ & _ & B & _). unfold body. rewrite has_app. destruct (0 <=? xt_from t)%Z; [|cbn; tauto].
  rewrite !has_app. pose proof (dec_noblank (Z.to_nat (xt_from t))). cbn. intuition discriminate.
Qed.
Lemma body_ne t : simple_name (x_P t) -> body t <> "".
Proof. intros (E & _). unfold body. destruct (x_P t); [congruence|discriminate]. Qed.
Definition good (w : string) := w <> "" /\ ~ has_char " " w.
Lemma twords_good t : simple_name (x_P t) -> List.Forall good (twords t).
Proof.
  intros S. unfold twords. apply Forall_app. split.
  - destruct (1 <? xt_n t)%Z; [|constructor]. constructor; [|constructor]. split; [apply dec_nonempty|apply dec_noblank].
  - constructor; [|constructor]. split; [now apply body_ne|now apply body_noblank].
Qed.
Lemma words_good l : simple_terms l -> List.Forall good (words l).
Proof.
  induction l as [|t l IH]; intros H; [constructor|]. inversion H as [|? ? [S _] H']; subst.
  destruct l as [|u l]; [now apply twords_good|]. rewrite words_cons. apply Forall_app. split; [now apply twords_good|].
  constructor; [|now apply IH]. split; [discriminate|cbn; intuition discriminate].
Qed.
Lemma term_text_words t : (0 <= xt_n t < 4294967296)%Z -> term_text t = join (twords t).
Proof.
  intros B. unfold term_text, u32. rewrite Z.mod_small by lia. unfold twords, body.
  destruct (1 <? xt_n t)%Z; cbn [app]; [|reflexivity]. rewrite join_cons. now rewrite sapp_assoc.
Qed.
Lemma concat_cons2 (s a b : string) l : String.concat s (a :: b :: l) = a ++ s ++ String.concat s (b :: l).
Proof. reflexivity. Qed.
Lemma terms_text_words l : simple_terms l -> terms_text l = join (words l).
Proof.
  induction l as [|t l IH]; intros H; [reflexivity|]. inversion H as [|? ? [S B] H']; subst.
  destruct l as [|u l]; [unfold terms_text; cbn; apply term_text_words; lia|].
  unfold terms_text in *. cbn [map] in *. rewrite concat_cons2, (IH H'), (term_text_words t) by lia.
  rewrite words_cons, join_app by (apply twords_ne || discriminate).
  pose proof (words_ne u l) as W. destruct (words (u :: l)) as [|v vs]; [congruence|]. rewrite join_cons. reflexivity.
Qed.

(** The words of the whole text; an empty side is an empty word. *)
Definition side (l : list xterm) : list string := match l with [] => [""] | _ => words l end.
Lemma side_ne l : side l <> [].
Proof. destruct l; [discriminate|apply words_ne]. Qed.
Lemma side_text l : simple_terms l -> terms_text l = join (side l).
Proof. intros H. rewrite terms_text_words by exact H. now destruct l. Qed.
Lemma side_noblank l : simple_terms l -> List.Forall (fun w => ~ has_char " " w) (side l).
Proof.
  intros H. apply words_good in H. destruct l; [constructor; [cbn; tauto|constructor]|].
  eapply Forall_impl; [|exact H]. intros w [_ ?]. assumption.
Qed.
Lemma eq_text_words a b : simple_terms a -> simple_terms b ->
  split_on " " (eq_text a b) = (side a ++ [""; "-->"; ""] ++ side b)%list.
Proof.
  intros Ha Hb. rewrite <- (split_join (side a ++ [""; "-->"; ""] ++ side b)%list).
  - f_equal. unfold eq_text. rewrite (side_text a), (side_text b) by assumption.
    rewrite join_app; [|apply side_ne|discriminate].
    rewrite join_app; [reflexivity|discriminate|apply side_ne].
  - intros H. apply app_eq_nil in H as [H _]. now apply side_ne in H.
  - repeat (apply Forall_app; split); try (now apply side_noblank).
    repeat constructor; cbn; intuition discriminate.
Qed.

Lemma cut_first (a b : list string) r s : ~ In "" a -> ~ In "" b -> (a ++ "" :: r = b ++ "" :: s)%list -> a = b /\ r = s.
Proof.
  revert b. induction a as [|x a IH]; intros b Ha Hb E.
  - destruct b as [|y b]; [cbn in E; injection E as ->; auto|]. cbn in E. injection E as <- _. cbn in Hb. tauto.
  - destruct b as [|y b]; [cbn in E; injection E as -> _; cbn in Ha; tauto|].
    cbn in E. injection E as <- E. cbn in Ha, Hb. destruct (IH b) as [-> ->]; [tauto|tauto|exact E|]. auto.
Qed.
Lemma good_no_empty ws : List.Forall good ws -> ~ In "" ws.
Proof. intros H I. rewrite Forall_forall in H. destruct (H _ I). congruence. Qed.
Lemma side_cut a a' b b' : simple_terms a -> simple_terms a' ->
  (side a ++ [""; "-->"; ""] ++ b = side a' ++ [""; "-->"; ""] ++ b')%list -> words a = words a' /\ b = b'.
Proof.
  intros Ha Ha' E. pose proof (good_no_empty _ (words_good _ Ha)) as G. pose proof (good_no_empty _ (words_good _ Ha')) as G'.
  destruct a as [|t a], a' as [|t' a'].
  - cbn in E. injection E as ->. auto.
  - exfalso. pose proof (words_ne t' a') as W. cbn [side] in E. destruct (words (t' :: a')) as [|w ws]; [congruence|].
    cbn in E. injection E as <- _. cbn in G'. tauto.
  - exfalso. pose proof (words_ne t a) as W. cbn [side] in E. destruct (words (t :: a)) as [|w ws]; [congruence|].
    cbn in E. injection E as -> _. cbn in G. tauto.
  - cbn [side] in E. apply cut_first in E as [E1 E2]; [|assumption|assumption]. injection E2 as ->. auto.
Qed.

Lemma app_cut c a a' r r' : ~ has_char c a -> ~ has_char c a' ->
  (a ++ String c r = a' ++ String c r' -> a = a' /\ r = r') /\ a ++ String c r <> a'.
Proof.
  intros H H'. split.
  - revert a' H'. induction a as [|d a IH]; intros a' H'; destruct a' as [|d' a']; cbn in *; intros E.
    + injection E as ->. auto.
    + injection E as -> _. exfalso. apply H'. now left.
    + injection E as -> _. exfalso. apply H. now left.
    + injection E as -> E. destruct (IH (fun Q => H (or_intror Q)) a') as [-> ->]; [tauto|exact E|]. auto.
  - intros <-. apply H'. apply has_app. right. now left.
Qed.
Lemma body_inj a b : simple_name (x_P a) -> simple_name (x_P b) -> body a = body b ->
  x_P a = x_P b /\ (xt_from a = xt_from b \/ (xt_from a < 0 /\ xt_from b < 0)%Z).
Proof.
  intros (_ & _ & _ & Ba) (_ & _ & _ & Bb). unfold body.
  destruct (Z.leb_spec 0 (xt_from a)) as [La|La], (Z.leb_spec 0 (xt_from b)) as [Lb|Lb]; intros E.
  - change ("[" ++ dec (Z.to_nat (xt_from a)) ++ "]") with (String "[" (dec (Z.to_nat (xt_from a)) ++ "]")) in E.
    change ("[" ++ dec (Z.to_nat (xt_from b)) ++ "]") with (String "[" (dec (Z.to_nat (xt_from b)) ++ "]")) in E.
    apply (proj1 (app_cut "[" _ _ _ _ Ba Bb)) in E as [E1 E2]. split; [exact E1|]. left.
    change "]" with (String "]" "") in E2.
    assert (NB : forall n, ~ has_char "]" (dec n)).
    { intros n Q. apply dec_digits in Q. cbn in Q. decompose [or] Q; try discriminate; assumption. }
    apply (proj1 (app_cut "]" _ _ "" "" (NB _) (NB _))) in E2 as [E2 _]. apply dec_inj in E2. lia.
  - exfalso. rewrite sapp_nil in E. revert E.
    change ("[" ++ dec (Z.to_nat (xt_from a)) ++ "]") with (String "[" (dec (Z.to_nat (xt_from a)) ++ "]")).
    exact (proj2 (app_cut "[" (x_P a) (x_P b) _ "" Ba Bb)).
  - exfalso. rewrite sapp_nil in E. symmetry in E. revert E.
    change ("[" ++ dec (Z.to_nat (xt_from b)) ++ "]") with (String "[" (dec (Z.to_nat (xt_from b)) ++ "]")).
    exact (proj2 (app_cut "[" (x_P b) (x_P a) _ "" Bb Ba)).
  - rewrite !sapp_nil in E. split; [exact E|right; lia].
Qed.
Lemma body_plus t : simple_name (x_P t) -> body t <> "+".
Proof.
  intros (E & P & _ & B) H. unfold body in H. destruct (x_P t) as [|c s]; [congruence|].
  cbn in H. injection H as -> H. destruct s; [|discriminate]. congruence.
Qed.

(** Reading the first term of a list of words. *)
Lemma twords_cut t t' r r' : simple_name (x_P t) -> simple_name (x_P t') ->
  (1 <= xt_n t)%Z -> (1 <= xt_n t')%Z ->
  (r = [] \/ exists q, r = "+" :: q) -> (r' = [] \/ exists q, r' = "+" :: q) ->
  (twords t ++ r = twords t' ++ r')%list -> same_term t t' /\ r = r'.
Proof.
  intros S S' N1 N1' R R' E. unfold twords in E. rewrite <- !app_assoc in E.
  destruct (Z.ltb_spec 1 (xt_n t)) as [L|L], (Z.ltb_spec 1 (xt_n t')) as [L'|L']; cbn in E.
  - injection E as D B ->. apply dec_inj in D. destruct (body_inj _ _ S S' B) as [P F].
    split; [|reflexivity]. split; [exact P|]. split; [lia|exact F].
  - exfalso. injection E as _ E. destruct R' as [->|[q ->]]; [discriminate|]. injection E as B _. now apply (body_plus t).
  - exfalso. injection E as _ E. destruct R as [->|[q ->]]; [discriminate|]. injection E as B _. now apply (body_plus t').
  - injection E as B ->. destruct (body_inj _ _ S S' B) as [P F].
    split; [|reflexivity]. split; [exact P|]. split; [lia|exact F].
Qed.
Lemma words_inj a : forall a', simple_terms a -> simple_terms a' -> words a = words a' -> same_terms a a'.
Proof.
  assert (R : forall l, exists r, (match l with [] => [] | u :: k => "+" :: words (u :: k) end : list string) = r /\ (r = [] \/ exists q, r = "+" :: q)).
  { intros [|u l]; eexists; (split; [reflexivity|]); eauto. }
  assert (W : forall t l, words (t :: l) = (twords t ++ match l with [] => [] | u :: k => "+" :: words (u :: k) end)%list).
  { intros t [|u l]; [symmetry; apply app_nil_r|reflexivity]. }
  induction a as [|t a IH]; intros a' H H' E.
  - destruct a' as [|t' a']; [constructor|]. exfalso. symmetry in E. now apply words_ne in E.
  - destruct a' as [|t' a']; [exfalso; now apply words_ne in E|].
    inversion H as [|? ? [S B] Ht]; subst. inversion H' as [|? ? [S' B'] Ht']; subst.
    rewrite (W t a), (W t' a') in E. destruct (R a) as (r & Er & Hr), (R a') as (r' & Er' & Hr').
    rewrite Er, Er' in E. destruct (twords_cut t t' r r') as [T Q]; try assumption; try lia.
    constructor; [exact T|]. apply IH; [assumption|assumption|].
    destruct a as [|u a], a' as [|u' a']; subst r r'; try discriminate; [reflexivity|]. now injection Q.
Qed.

Lemma eq_text_inj a b a' b' : simple_terms a -> simple_terms b -> simple_terms a' -> simple_terms b' ->
  eq_text a b = eq_text a' b' <-> same_terms a a' /\ same_terms b b'.
Proof.
  intros Ha Hb Ha' Hb'. split.
  - intros E. apply (f_equal (split_on " ")) in E. rewrite !eq_text_words in E by assumption.
    apply side_cut in E as [E1 E2]; [|assumption|assumption].
    split; apply words_inj; try assumption.
    destruct b as [|t b], b' as [|t' b']; [reflexivity| | |exact E2].
    + exfalso. cbn [side] in E2. pose proof (good_no_empty _ (words_good _ Hb')) as G. rewrite <- E2 in G. cbn in G. tauto.
    + exfalso. cbn [side] in E2. pose proof (good_no_empty _ (words_good _ Hb)) as G. rewrite E2 in G. cbn in G. tauto.
  - assert (G : forall l l', same_terms l l' -> terms_text l = terms_text l').
    { intros l l' S. unfold terms_text. f_equal. induction S as [|t t' l l' (P & Q & F) S IH]; [reflexivity|]. cbn. f_equal; [|exact IH].
      unfold term_text. rewrite P, Q. do 2 f_equal. destruct F as [->|[A B]]; [reflexivity|].
      destruct (Z.leb_spec 0 (xt_from t)), (Z.leb_spec 0 (xt_from t')); try lia. reflexivity. }
    intros [A B]. unfold eq_text. now rewrite (G _ _ A), (G _ _ B).
Qed.
