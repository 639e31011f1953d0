(** Independent specification for cost functions that arrive over time. *)
From Verif Require Export CostModel.
Local Open Scope Z_scope.

(** In the history of registrations [hist] (oldest first) the registration that counts
    at time [t] is [f], registered for time [s]: [s] is the greatest registered time in
    1..t, and among the registrations for [s] it is the most recent one. *)
Definition answers {F : Type} (hist : list (Z * F)) (t s : Z) (f : F) : Prop :=
  1 <= s <= t /\
  exists before after, hist = before ++ (s, f) :: after /\
    (forall s' f', In (s', f') before -> 1 <= s' <= t -> s' <= s) /\
    (forall s' f', In (s', f') after -> 1 <= s' <= t -> s' < s).

(** No registration applies at time [t]. *)
Definition unanswered {F : Type} (hist : list (Z * F)) (t : Z) : Prop :=
  forall s f, In (s, f) hist -> ~ (1 <= s <= t).

(** The cost function after the registrations [hist]. *)
Definition of_history {X C D} (hist : list (Z * single_fn X C D)) : cost_fn X C D :=
  fold_left (fun cf e => cf_add cf (fst e) (snd e)) hist cf_empty.

(** [m] is the average of [l]: infinite iff some element is. *)
Definition is_average (l : list ext) (m : ext) : Prop :=
  match m with
  | Inf => In Inf l
  | Fin q => exists qs, l = map Fin qs /\ (inject_Z (Z.of_nat (length qs)) * q == Qsum qs)%Q
  end.

(** The operations of a value type agree with those of the rationals. *)
Definition lawful {T} (v : value T) : Prop :=
  (v_toQ v (v_zero v) == 0)%Q /\
  forall a b, (v_toQ v (v_sub v a b) == v_toQ v a - v_toQ v b)%Q.

(** A point between zero and the upper bounds, resp. between lower and upper bounds. *)
Definition in_box {T} (v : value T) (bounds x : list T) : Prop :=
  Forall2 (fun u j => (0 <= v_toQ v j <= v_toQ v u)%Q) bounds x.
Definition in_box2 {T} (v : value T) (bounds : list (T * T)) (x : list T) : Prop :=
  Forall2 (fun b j => (v_toQ v (fst b) <= v_toQ v j <= v_toQ v (snd b))%Q) bounds x.

(** Equal costs: equal numbers and the same output. *)
Definition cost_eq {C D} (a b : cost C D) : Prop :=
  eeq (c_cost a) (c_cost b) /\ c_out a = c_out b.

(** Equal outcomes, values being compared by [R]. *)
Definition outcome_rel {A} (R : A -> A -> Prop) (a b : outcome A) : Prop :=
  match a, b with
  | Ok x, Ok y => R x y
  | Err f, Err g => f = g
  | Panic, Panic => True
  | _, _ => False
  end.
