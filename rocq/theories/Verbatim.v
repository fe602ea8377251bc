(** Verbatim: scalar tokens are kept as they were read (C09), strict run or not. *)
From Verif Require Import Base Source Utils Items Container Arrays Parser Api Lemmas Escape Strings StringRT StringApi Numbers Reader Text.
From Coq Require Import ZifyBool ZifyNat ZifyN.
Open Scope nat_scope.

Definition not_val (i : item) : Prop := match i with IVal _ _ => False | _ => True end.
Lemma nv_array n : forall s e p, sat not_val (array_loop s n e p).
Proof.
  induction n as [|n IH]; intros; cbn [array_loop]; sat; try (apply sat_ret; exact I).
  all: intros st ax st' E; destruct (parse_value s n st) as [[v|e0] st1].
  all: try (destruct (_ && _); [discriminate|]; eapply IH; eauto).
  all: destruct e0 as [k0 l0 c0| | | | | | | | | | | | | |]; try discriminate; destruct k0; try discriminate;
       destruct (_ && _); [discriminate|]; revert E; match goal with |- ?m _ = _ -> _ =>
         assert (G : sat not_val m) by (sat; apply sat_ret; exact I); apply G end.
Qed.
Lemma nv_inline n : forall s e p, sat not_val (inline_loop s n e p).
Proof. induction n as [|n IH]; intros; cbn [inline_loop]; sat; apply sat_ret; exact I. Qed.
Lemma scalar_read s n st v t st' : parse_value s n st = (Ok (IVal v t), st') -> read_value (IVal v t) st st'.
Proof.
  intros H. destruct n as [|n]; [discriminate|]. cbn [parse_value] in H. bix H. bix H.
    assert (NV : forall m : M item, sat not_val m -> m (set_mark st) = (Ok (IVal v t), st') -> read_value (IVal v t) st st').
    { intros m Hm Em. apply Hm in Em. destruct Em. }
    destruct (N.eqb_spec (cur (set_mark st)) chDQ); [eapply string_text_read; [|exact H]; reflexivity|].
    destruct (N.eqb_spec (cur (set_mark st)) chSQ); [eapply string_text_read; [|exact H]; reflexivity|].
    destruct (_ =? 116)%N; [eapply bool_text_read; exact H|]. destruct (_ =? 102)%N; [eapply bool_text_read; exact H|].
    destruct (_ =? chLBR)%N; [eapply NV; [|exact H]; apply sat_bind; intros _; apply nv_array|].
    destruct (_ =? chLCB)%N; [eapply NV; [|exact H]; apply sat_bind; intros _; apply nv_inline|].
    bi H p s1 Q1. assert (s1 = set_mark st) by (inversion Q1; reflexivity). subst s1. clear Q1.
    destruct (_ || _ || _)%N; [eapply signed_text; exact H|]. destruct (is_ascii_digit _); [eapply digit_text; exact H|discriminate].
Qed.
Lemma scalar_verbatim s n st v t st' : parse_value s n st = (Ok (IVal v t), st') -> moved (scalar_string v ++ tr_cws t) st st' /\ tr_indent t = [] /\ tr_comment t = [].
Proof.
  intros H. pose proof (scalar_read s n st v t st' H) as G.
  destruct G as (A & _ & B & C & _). cbn [item_string item_trivia] in *. split; [|auto]. destruct (good_value s n st) as [w Hw]. rewrite H in Hw. cbn [snd] in Hw.
  rewrite (adds_inj _ _ _ _ A (moved_adds _ _ _ Hw)). exact Hw.
Qed.
(** Only dates carry blanks along. *)
Lemma string_cws s n st d x o t st' : parse_value s n st = (Ok (IVal (SStr d x o) t), st') -> tr_cws t = [].
Proof.
  intros H. destruct n as [|n]; [discriminate|]. cbn [parse_value] in H. bix H. bix H.
  assert (NS : forall m : M item, sat (fun i => match i with IVal (SStr _ _ _) t => tr_cws t = [] | _ => True end) m -> m (set_mark st) = (Ok (IVal (SStr d x o) t), st') -> tr_cws t = []).
  { intros m Hm Em. apply Hm in Em. exact Em. }
  assert (NV : forall m : M item, sat not_val m -> m (set_mark st) = (Ok (IVal (SStr d x o) t), st') -> tr_cws t = []).
  { intros m Hm Em. apply Hm in Em. destruct Em. }
  assert (NN : forall raw, sat (fun i => match i with IVal (SStr _ _ _) t => tr_cws t = [] | _ => True end) (match parse_number raw with Some v => ret (scalar_item v) | None => raise KInvalidNumber end)).
  { intros raw. destruct (parse_number raw) as [v|] eqn:E; [|apply sat_raise]. apply sat_ret. apply sat_number in E. destruct v; try contradiction; exact I. }
  destruct (_ =? chDQ)%N; [eapply NS; [|exact H]; apply sat_bind; intros; apply sat_ret; destruct a; exact I || reflexivity|].
  destruct (_ =? chSQ)%N; [eapply NS; [|exact H]; apply sat_bind; intros; apply sat_ret; destruct a; exact I || reflexivity|].
  destruct (_ =? 116)%N; [apply bool_inv in H as [H _]; discriminate|]. destruct (_ =? 102)%N; [apply bool_inv in H as [H _]; discriminate|].
  destruct (_ =? chLBR)%N; [eapply NV; [|exact H]; apply sat_bind; intros _; apply nv_array|].
  destruct (_ =? chLCB)%N; [eapply NV; [|exact H]; apply sat_bind; intros _; apply nv_inline|].
  bi H p s1 Q1. assert (s1 = set_mark st) by (inversion Q1; reflexivity). subst s1. clear Q1.
  destruct (_ || _ || _)%N; [eapply NS; [|exact H]; unfold parse_signed_value; do 2 (apply sat_bind; intros ?); apply NN|]. destruct (is_ascii_digit _); [|discriminate].
  eapply NS; [|exact H]. unfold parse_digit_value. do 2 (apply sat_bind; intros ?). destruct (loose_match a0) as [[[] []]|]; try apply NN; sat; apply sat_ret; exact I.
Qed.
(** [tomlkit.value(s)]: the whole text. *)
Lemma value_of_verbatim s v t : value_of s = Ok (IVal v t) -> s = scalar_string v ++ tr_cws t.
Proof.
  unfold value_of. intros H. match type of H with fst ?m = _ => destruct m as [r st'] eqn:E end. cbn [fst] in H. subst r.
  bi E x s1 Q1. bix E. bix E. destruct (at_end s1) eqn:Ee; [|discriminate]. assert (Z : x = IVal v t /\ st' = s1) by (inversion E; auto). destruct Z as [-> ->].
  apply scalar_verbatim in Q1 as [[A B] _]. cbn in A. unfold at_end in Ee. destruct (p_rest s1); [|discriminate]. rewrite app_nil_r in A. exact A.
Qed.
