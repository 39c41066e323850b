(** Induction over syntax trees, reaching into the lists inside the nodes. *)
From Verif Require Import Base Buf Nodes.

Section ExprInd.
Variable P : expr -> Prop.
Definition opt_P (o : option expr) : Prop := match o with Some k => P k | None => True end.
Hypothesis HIndex : forall a i, P a -> P i -> P (EArrIndex a i).
Hypothesis HBinary : forall p op a b, P a -> P b -> P (EBinary p op a b).
Hypothesis HField : forall p op t f, P t -> P (EField p op t f).
Hypothesis HCast : forall t x, P x -> P (ECast t x).
Hypothesis HComp : forall es, Forall (fun e => P (snd e)) es ->
  Forall (fun e => opt_P (snd (fst e))) es -> P (EComp es).
Hypothesis HCall : forall p f args, P f -> Forall P args -> P (ECall p f args).
Hypothesis HLit : forall l, P (ELit l).
Hypothesis HName : forall n, P (EName n).
Hypothesis HPostfix : forall op x, P x -> P (EPostfix op x).
Hypothesis HPrefix : forall p op x, P x -> P (EPrefix p op x).
Hypothesis HSizeofT : forall t, P (ESizeofT t).
Hypothesis HSizeofE : forall x, P x -> P (ESizeofE x).

Fixpoint expr_ind' (e : expr) : P e :=
  match e with
  | EArrIndex a i => HIndex a i (expr_ind' a) (expr_ind' i)
  | EBinary p op a b => HBinary p op a b (expr_ind' a) (expr_ind' b)
  | EField p op t f => HField p op t f (expr_ind' t)
  | ECast t x => HCast t x (expr_ind' x)
  | EComp es =>
      HComp es
        ((fix go (l : list (bool * option expr * expr)) : Forall (fun e => P (snd e)) l :=
            match l with
            | [] => Forall_nil _
            | x :: r => Forall_cons x (expr_ind' (snd x)) (go r)
            end) es)
        ((fix go (l : list (bool * option expr * expr)) :
              Forall (fun e => opt_P (snd (fst e))) l :=
            match l with
            | [] => Forall_nil _
            | x :: r => @Forall_cons _ (fun e => opt_P (snd (fst e))) x r (match snd (fst x) as o return opt_P o with
                                       | Some k => expr_ind' k
                                       | None => I
                                       end) (go r)
            end) es)
  | ECall p f args =>
      HCall p f args (expr_ind' f)
        ((fix go (l : list expr) : Forall P l :=
            match l with
            | [] => Forall_nil _
            | x :: r => Forall_cons x (expr_ind' x) (go r)
            end) args)
  | ELit l => HLit l
  | EName n => HName n
  | EPostfix op x => HPostfix op x (expr_ind' x)
  | EPrefix p op x => HPrefix p op x (expr_ind' x)
  | ESizeofT t => HSizeofT t
  | ESizeofE x => HSizeofE x (expr_ind' x)
  end.
End ExprInd.

Section StmtInd.
Variable P : stmt -> Prop.
Definition opt_all (o : option (list stmt)) : Prop :=
  match o with Some b => Forall P b | None => True end.
Hypothesis HBreak : P SBreak.
Hypothesis HContinue : P SContinue.
Hypothesis HVar : forall v, P (SVarDecl v).
Hypothesis HIf : forall c b e, Forall P b -> opt_all e -> P (SIf c b e).
Hypothesis HFor : forall i c a b, Forall P b -> P (SFor i c a b).
Hypothesis HWhile : forall c b, Forall P b -> P (SWhile c b).
Hypothesis HReturn : forall e, P (SReturn e).
Hypothesis HSwitch : forall s v cs d, Forall (fun c => Forall P (snd c)) cs -> opt_all d ->
  P (SSwitch s v cs d).
Hypothesis HExpr : forall e, P (SExpr e).

Fixpoint stmt_ind' (s : stmt) : P s :=
  let body := fix go (l : list stmt) : Forall P l :=
    match l with
    | [] => Forall_nil _
    | x :: r => Forall_cons x (stmt_ind' x) (go r)
    end in
  let opt := fun o : option (list stmt) =>
    match o as o return opt_all o with Some b => body b | None => I end in
  match s with
  | SBreak => HBreak
  | SContinue => HContinue
  | SVarDecl v => HVar v
  | SIf c b e => HIf c b e (body b) (opt e)
  | SFor i c a b => HFor i c a b (body b)
  | SWhile c b => HWhile c b (body b)
  | SReturn e => HReturn e
  | SSwitch s v cs d =>
      HSwitch s v cs d
        ((fix go (l : list (list switch_value * list stmt)) : Forall (fun c => Forall P (snd c)) l :=
            match l with
            | [] => Forall_nil _
            | x :: r => Forall_cons x (body (snd x)) (go r)
            end) cs) (opt d)
  | SExpr e => HExpr e
  end.
End StmtInd.
