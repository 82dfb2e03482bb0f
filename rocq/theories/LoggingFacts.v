(** LoggingFacts.v -- proofs about messages. *)
From Coq Require Import String Ascii List Bool Arith Lia.
From Verif Require Import Num Logging LoggingSpec.
Import ListNotations.
Open Scope string_scope.

Definition is_package (h : handler) : bool := match h_owner h with Package _ => true | User => false end.
Record good (s : logging) : Prop := {
  g_one : (length (filter is_package (l_handlers s)) <= 1)%nat;
  g_root : filter is_package (r_handlers s) = [];
  g_nodup : NoDup (map h_id (l_handlers s));
  g_nodup_r : NoDup (map h_id (r_handlers s));
  g_fresh : forall h, In h (l_handlers s) -> (h_id h < l_next s)%nat;
  g_fresh_r : forall h, In h (r_handlers s) -> (h_id h < l_next s)%nat }.
Lemma has_false h l : has h l = false <-> ~ In (h_id h) (map h_id l).
Proof.
  unfold has. induction l as [|a l IH]; cbn; [tauto|]. rewrite orb_false_iff, Nat.eqb_neq, IH. intuition.
Qed.
Lemma nodup_snoc {A} (l : list A) a : NoDup l -> ~ In a l -> NoDup (l ++ [a]).
Proof. intros N I. apply NoDup_rev in N. rewrite <- (rev_involutive (l ++ [a])), rev_app_distr. apply NoDup_rev. cbn. constructor; auto. now rewrite <- in_rev. Qed.
Lemma add_nodup h l : NoDup (map h_id l) -> NoDup (map h_id (add_handler h l)).
Proof.
  intros N. unfold add_handler. destruct (has h l) eqn:E; auto. apply has_false in E. rewrite map_app. cbn. now apply nodup_snoc.
Qed.
Lemma add_in h l h' : In h' (add_handler h l) -> In h' l \/ h' = h.
Proof. unfold add_handler. destruct (has h l); auto. rewrite in_app_iff. cbn. intuition. Qed.
Lemma remove_nodup i l : NoDup (map h_id l) -> NoDup (map h_id (remove_handler i l)).
Proof.
  unfold remove_handler. induction l as [|a l IH]; cbn; auto. intros N. inversion N as [|? ? N1 N2]; subst. destruct (negb (h_id a =? i)%nat); cbn; auto.
  constructor; auto. intros I. apply N1. apply in_map_iff in I. destruct I as (b & <- & Ib). apply filter_In in Ib. now apply in_map.
Qed.
Lemma filter_filter_len {A} (p q : A -> bool) l : (length (filter p (filter q l)) <= length (filter p l))%nat.
Proof. induction l as [|a l IH]; cbn; auto. destruct (q a); cbn; destruct (p a); cbn; lia. Qed.
Lemma filter_filter_nil {A} (p q : A -> bool) l : filter p l = [] -> filter p (filter q l) = [].
Proof. intros H. pose proof (filter_filter_len p q l) as L. rewrite H in L. cbn in L. destruct (filter p (filter q l)); auto. cbn in L. lia. Qed.
Lemma add_user h l : is_package h = false -> filter is_package (add_handler h l) = filter is_package l.
Proof. intros U. unfold add_handler. destruct (has h l); auto. rewrite filter_app. cbn. rewrite U. apply app_nil_r. Qed.
Lemma find_user_in i l h : find_user i l = Some h -> In h l /\ is_package h = false.
Proof. intros F. apply find_some in F. destruct F as [I F]. split; auto. apply andb_true_iff in F. unfold is_package. destruct (h_owner h); auto. now destruct F. Qed.
Lemma good_fresh out : good (fresh out).
Proof. split; cbn; auto; try constructor; contradiction. Qed.
Lemma good_happen e s : good s -> good (happen e s).
Proof.
  intros [A B C D E F]. destruct e as [|lv root|i root|i|i|lv|lv|b|out]; cbn [happen].
  - unfold import_module. destruct (l_handlers s) as [|h0 l0] eqn:L; [|now split; rewrite ?L].
    split; cbn [l_handlers r_handlers l_next]; auto.
    + cbn. repeat constructor. cbn. tauto.
    + cbn. intros h [<-|[]]. cbn. lia.
    + intros h I. specialize (F h I). lia.
  - destruct root; split; cbn [l_handlers r_handlers l_next]; auto.
    + now rewrite add_user.
    + now apply add_nodup.
    + intros h I. specialize (E h I). lia.
    + intros h I. apply add_in in I. destruct I as [I| ->]; [specialize (F h I); lia|cbn; lia].
    + rewrite add_user; auto.
    + now apply add_nodup.
    + intros h I. apply add_in in I. destruct I as [I| ->]; [specialize (E h I); lia|cbn; lia].
    + intros h I. specialize (F h I). lia.
  - destruct (find_user i (l_handlers s ++ r_handlers s)) as [h|] eqn:FU; [|now split]. apply find_user_in in FU. destruct FU as [I U].
    assert (K : (h_id h < l_next s)%nat) by (apply in_app_iff in I; destruct I; auto).
    destruct root; split; cbn [l_handlers r_handlers l_next with_logger]; auto.
    + now rewrite add_user.
    + now apply add_nodup.
    + intros h' I'. apply add_in in I'. destruct I' as [I'| ->]; auto.
    + now rewrite add_user.
    + now apply add_nodup.
    + intros h' I'. apply add_in in I'. destruct I' as [I'| ->]; auto.
  - split; cbn [l_handlers r_handlers l_next with_logger]; auto.
    + pose proof (filter_filter_len is_package (fun h => negb (h_id h =? i)%nat) (l_handlers s)) as X. unfold remove_handler. lia.
    + now apply remove_nodup.
    + intros h I. apply filter_In in I. now apply E.
  - split; cbn [l_handlers r_handlers l_next]; auto.
    + unfold remove_handler. now apply filter_filter_nil.
    + now apply remove_nodup.
    + intros h I. apply filter_In in I. now apply F.
  - now split.
  - now split.
  - now split.
  - now split.
Qed.
Lemma good_history es : forall s, good s -> good (history es s).
Proof. induction es as [|e es IH]; intros s G; cbn; auto. apply IH. now apply good_happen. Qed.
Lemma reached_good s : reached s -> good s.
Proof. intros (out & es & ->). apply good_history, good_fresh. Qed.

Lemma one_handler_thm s : reached s -> (length (package_handlers s) <= 1)%nat.
Proof. intros R. apply reached_good in R. destruct R as [A B _ _ _ _]. unfold package_handlers. fold is_package. change (fun h => match h_owner h with Package _ => true | User => false end) with is_package. rewrite filter_app, B, app_nil_r. exact A. Qed.
(** A message reaches no handler of a logger twice. *)
Lemma nodup_filter_map {A B} (f : A -> B) (p : A -> bool) l : NoDup (map f l) -> NoDup (map f (filter p l)).
Proof.
  induction l as [|a l IH]; cbn; auto. intros N. inversion N as [|? ? N1 N2]; subst. destruct (p a); cbn; auto. constructor; auto.
  intros I. apply N1. apply in_map_iff in I. destruct I as (b & <- & Ib). apply filter_In in Ib. now apply in_map.
Qed.
Lemma nodup_of_map {A B} (f : A -> B) l : NoDup (map f l) -> NoDup l.
Proof. induction l as [|a l IH]; intros N; [constructor|]. cbn in N. inversion N; subst. constructor; auto. intros I. apply H1. now apply in_map. Qed.
Lemma nodup_inj_map {A B} (f : A -> B) l : (forall a b, f a = f b -> a = b) -> NoDup l -> NoDup (map f l).
Proof. intros F N. induction N; cbn; constructor; auto. intros I. apply in_map_iff in I. destruct I as (b & E & Ib). apply F in E. now subst. Qed.
Lemma nodup_app {A} (l1 l2 : list A) : NoDup l1 -> NoDup l2 -> (forall a, In a l1 -> In a l2 -> False) -> NoDup (l1 ++ l2).
Proof.
  intros N1 N2 D. induction N1 as [|a l NI N IH]; cbn; auto. constructor.
  - rewrite in_app_iff. intros [I|I]; [contradiction|]. apply (D a); auto. now left.
  - apply IH. intros b B1 B2. apply (D b); auto. now right.
Qed.
Lemma once_thm s lv : reached s -> NoDup (deliveries lv s).
Proof.
  intros R. apply reached_good in R. destruct R as [A B C D E F]. unfold deliveries. destruct (effective_level s <=? lv)%nat; [|constructor].
  destruct (l_handlers s ++ _)%list; [destruct (WARNING <=? lv)%nat; repeat constructor; cbn; tauto|].
  apply nodup_app.
  - apply nodup_inj_map; [congruence|]. apply nodup_of_map with (f := h_id). now apply nodup_filter_map.
  - destruct (l_propagate s); [|constructor]. apply nodup_inj_map; [congruence|]. apply nodup_of_map with (f := h_id). now apply nodup_filter_map.
  - intros a I1 I2. apply in_map_iff in I1. destruct I1 as (g & <- & _). destruct (l_propagate s); [|contradiction]. apply in_map_iff in I2. destruct I2 as (g' & X & _). discriminate.
Qed.
(** Messages do not reach the root logger once the package has set up logging. *)
Lemma propagate_stays es : forall s, l_propagate s = false -> no_propagate es -> l_propagate (history es s) = false.
Proof.
  induction es as [|e es IH]; intros s P N; cbn; auto. apply IH; [|intros I; apply N; now right].
  destruct e as [|lv root|i root|i|i|lv|lv|b|out]; cbn [happen]; auto.
  - unfold import_module. destruct (l_handlers s); auto.
  - destruct root; auto.
  - destruct (find_user _ _); auto. destruct root; auto.
  - cbn. destruct b; auto. elim N. now left.
Qed.
Lemma not_at_root s lv h : l_propagate s = false -> ~ In (AtRoot h) (deliveries lv s).
Proof.
  intros P I. unfold deliveries in I. rewrite P in I. destruct (effective_level s <=? lv)%nat; [|contradiction]. rewrite app_nil_r in I.
  destruct (l_handlers s) as [|a l]; [destruct (WARNING <=? lv)%nat; [destruct I as [I|[]]; discriminate|contradiction]|].
  rewrite app_nil_r in I. apply in_map_iff in I. destruct I as (h' & X & _). discriminate.
Qed.
Lemma no_duplicate_thm s es lv h : l_handlers s = [] -> no_propagate es -> ~ In (AtRoot h) (deliveries lv (history es (import_module s))).
Proof. intros H N. apply not_at_root, propagate_stays; auto. unfold import_module. rewrite H. reflexivity. Qed.
(** If the user attached handlers, importing or reloading changes nothing. *)
Lemma respected_thm s : l_handlers s <> [] -> import_module s = s.
Proof. intros H. unfold import_module. now destruct (l_handlers s). Qed.
Lemma kept_thm s h : In h (l_handlers s) -> In h (l_handlers (import_module s)).
Proof. intros I. rewrite respected_thm; auto. intros E. now rewrite E in I. Qed.
Lemma root_kept s : r_handlers (import_module s) = r_handlers s /\ r_level (import_module s) = r_level s.
Proof. unfold import_module. destruct (l_handlers s); split; reflexivity. Qed.
(** After importing into a fresh interpreter messages of level INFO and above are shown, once. *)
Lemma shown_thm s lv message : l_handlers s = [] -> (INFO <= lv)%nat ->
  written lv message (import_module s) = [format (Some (l_stdout s)) lv (level_name lv) message].
Proof.
  intros H L. unfold import_module. rewrite H. cbn [has existsb add_handler app]. unfold written, deliveries, effective_level.
  cbn [l_handlers l_level l_propagate r_handlers r_level]. change (INFO =? 0)%nat with false. cbv iota. rewrite (proj2 (Nat.leb_le INFO lv) L). reflexivity.
Qed.
(** The user's level is overwritten: set before the package is imported, or before reloading when no handler is left. *)
Lemma level_before_import out : l_level (history [SetLevel ERROR; Import] (fresh out)) = INFO /\
  deliveries INFO (history [SetLevel ERROR] (fresh out)) = [] /\ deliveries INFO (history [SetLevel ERROR; Import] (fresh out)) = [AtLegwork (mkHandler 0 0 (Package out))].
Proof. repeat split; reflexivity. Qed.
Lemma level_before_reload out : l_level (history [Import; RemoveHandler 0; SetLevel ERROR; Import] (fresh out)) = INFO /\
  written WARNING "x" (history [Import; RemoveHandler 0; SetLevel ERROR] (fresh out)) = [] /\
  written WARNING "x" (history [Import; RemoveHandler 0; SetLevel ERROR; Import] (fresh out)) = [format (Some out) WARNING "WARNING" "x"].
Proof. repeat split; reflexivity. Qed.
(** With a handler of the user's on the logger before the import, messages go to the root logger as well. *)
Lemma to_root_too out : deliveries WARNING (history [AddHandler 0 false; AddHandler 0 true; Import] (fresh out)) = [AtLegwork (mkHandler 0 0 User); AtRoot (mkHandler 1 0 User)].
Proof. reflexivity. Qed.

(** ** Text *)
Lemma app_str_assoc a b c : ((a ++ b) ++ c)%string = (a ++ (b ++ c))%string.
Proof. induction a as [|x a IH]; cbn; auto. now rewrite IH. Qed.
Lemma visible_app a b : plain a -> visible_text (a ++ b) false = (a ++ visible_text b false)%string.
Proof.
  induction a as [|c a IH]; intros P; [reflexivity|]. destruct P as [P1 P2]. cbn [append visible_text]. rewrite (proj2 (Ascii.eqb_neq c escape) P1). now rewrite IH.
Qed.
Lemma visible_plain a : plain a -> visible_text a false = a.
Proof. induction a as [|c a IH]; intros P; [reflexivity|]. destruct P as [P1 P2]. cbn [visible_text]. rewrite (proj2 (Ascii.eqb_neq c escape) P1). now rewrite IH. Qed.
Lemma plain_app a b : plain (a ++ b) <-> plain a /\ plain b.
Proof. induction a as [|c a IH]; cbn; [tauto|]. rewrite IH. tauto. Qed.
Ltac plain_const := cbn; repeat split; discriminate.
Lemma format_text out lv message : is_level lv -> plain message ->
  visible_text (format out lv (level_name lv) message) false = (prefix_of lv ++ message)%string.
Proof.
  intros L P. unfold format. destruct (use_colour out).
  - destruct L as [-> |[-> |[-> |[-> | ->]]]]; cbn; rewrite visible_plain by auto; reflexivity.
  - destruct L as [-> |[-> |[-> |[-> | ->]]]]; cbn; rewrite visible_plain by auto; reflexivity.
Qed.
Lemma no_colour out lv message : is_level lv -> plain message -> (forall o, out = Some o -> is_tty o = false) ->
  format out lv (level_name lv) message = (prefix_of lv ++ message)%string /\ plain (format out lv (level_name lv) message).
Proof.
  intros L P T. assert (U : use_colour out = false) by (destruct out; cbn; auto). unfold format. rewrite U.
  split.
  - destruct L as [-> |[-> |[-> |[-> | ->]]]]; reflexivity.
  - destruct L as [-> |[-> |[-> |[-> | ->]]]]; cbn; repeat split; auto; discriminate.
Qed.
Lemma on_terminal lv message : is_level lv ->
  format (Some (mkStream true)) lv (level_name lv) message = (String "027" "[1m" ++ colour_of lv ++ prefix_word lv ++ String "027" "[0m" ++ ": " ++ message)%string.
Proof. intros L. destruct L as [-> |[-> |[-> |[-> | ->]]]]; reflexivity. Qed.
Lemma small_char c : lower_char c = replaced "ABCDEFGHIJKLMNOPQRSTUVWXYZ" "abcdefghijklmnopqrstuvwxyz" c.
Proof. destruct c as [[] [] [] [] [] [] [] []]; vm_compute; reflexivity. Qed.
Lemma small_string s : lower s = in_small_letters s.
Proof. induction s as [|c s IH]; [reflexivity|]. cbn [lower in_small_letters]. now rewrite small_char, IH. Qed.
Lemma small_plain s : plain s -> plain (in_small_letters s).
Proof.
  induction s as [|c s IH]; [auto|]. intros [A B]. cbn [in_small_letters plain]. split; [|now apply IH]. rewrite <- small_char. intros H. apply A.
  destruct c as [[] [] [] [] [] [] [] []]; vm_compute in H; try discriminate H; reflexivity.
Qed.
Lemma named_text out lv name message : plain name -> plain message ->
  visible_text (format out lv name message) false = ("LEGWORK " ++ in_small_letters name ++ ": " ++ message)%string.
Proof.
  intros N P. unfold format. rewrite small_string. apply small_plain in N. set (n := in_small_letters name) in *.
  assert (V : visible_text (n ++ ": " ++ message) false = (n ++ ": " ++ message)%string).
  { apply visible_plain. apply plain_app. split; [exact N|]. apply plain_app. split; [plain_const|exact P]. }
  assert (W : visible_text (n ++ RESET ++ ": " ++ message) false = (n ++ ": " ++ message)%string).
  { rewrite visible_app by exact N. f_equal. cbn. now rewrite visible_plain by exact P. }
  destruct (use_colour out).
  - rewrite !app_str_assoc. unfold level_colour. destruct (lv =? WARNING)%nat; [|destruct (lv =? ERROR)%nat; [|destruct (lv =? CRITICAL)%nat]].
    all: transitivity ("LEGWORK " ++ visible_text (n ++ RESET ++ ": " ++ message) false)%string; [reflexivity|now rewrite W].
  - rewrite !app_str_assoc. transitivity ("LEGWORK " ++ visible_text (n ++ ": " ++ message) false)%string; [reflexivity|now rewrite V].
Qed.
