(** ItemInd: structural induction over items and containers. *)
From Verif Require Import Base Utils Items.

Section ItemInd.
  Variables (P : item -> Prop) (Q : container -> Prop).
  Hypotheses (Hws : forall s f, P (IWs s f)) (Hcm : forall t, P (IComment t)) (Hnull : P INull) (Hval : forall v t, P (IVal v t))
    (Harr : forall gs t m, Forall (fun g => forall v, g_value g = Some v -> P v) gs -> P (IArray gs t m))
    (Hinl : forall c t n, Q c -> P (IInline c t n)) (Htab : forall c m, Q c -> P (ITable c m))
    (Haot : forall l n p t, Forall (fun x => Q (fst x)) l -> P (IAoT l n p t))
    (Hcont : forall body m p tks d, Forall (fun kv => P (snd kv)) body -> Q (Cont body m p tks d)).
  Fixpoint item_ind2 (i : item) : P i :=
    match i with
    | IWs s f => Hws s f | IComment t => Hcm t | INull => Hnull | IVal v t => Hval v t
    | IArray gs t m => Harr gs t m ((fix go (l : list (agroup item)) : Forall (fun g => forall v, g_value g = Some v -> P v) l :=
        match l with
        | [] => Forall_nil _
        | g :: l' => Forall_cons g (match g as g0 return (forall v, g_value g0 = Some v -> P v) with
            | mkGroup a w b c => match w as w0 return (forall v, w0 = Some v -> P v) with
                | Some x => fun v E => match E in _ = y return match y with Some v => P v | None => True end with eq_refl => item_ind2 x end
                | None => fun v E => match E in _ = y return match y with Some v => P v | None => True end with eq_refl => I end
                end end) (go l')
        end) gs)
    | IInline c t n => Hinl c t n (cont_ind2 c)
    | ITable c m => Htab c m (cont_ind2 c)
    | IAoT l n p t => Haot l n p t ((fix go (l : list (container * tmeta)) : Forall (fun x => Q (fst x)) l :=
        match l with [] => Forall_nil _ | x :: l' => Forall_cons x (match x as x0 return Q (fst x0) with (c, _) => cont_ind2 c end) (go l') end) l)
    end
  with cont_ind2 (c : container) : Q c :=
    match c with
    | Cont body m p tks d => Hcont body m p tks d ((fix go (l : list (option skey * item)) : Forall (fun kv => P (snd kv)) l :=
        match l with [] => Forall_nil _ | x :: l' => Forall_cons x (match x as x0 return P (snd x0) with (_, v) => item_ind2 v end) (go l') end) body)
    end.
End ItemInd.
