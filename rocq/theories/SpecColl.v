(** What it means that processors agree on their collective operations.

    A processor's trace is the list of the operations it takes part in, each with the world it
    belongs to.  A collective operation of a world takes place only when all processors of the
    world have come to it: until then those that wait for it can do nothing else. *)
From Verif Require Export Collective.

(** the worlds a processor with trace [e] is a member of: the initial one, and those it got from split *)
Definition worlds (e : list ev) : list wid :=
  [] :: omap (λ x : ev, match snd x with OSplit c => Some (fst x ++ [c]) | _ => None end) e.
(** the kind of an operation: processors that split a world need not give the same colour *)
Definition kind (o : op) : op := match o with OSplit _ => OSplit 0 | _ => o end.
(** the operations of world [G] in a trace *)
Definition ops_of (G : wid) (e : list ev) : list op := (λ x : ev, kind (snd x)) <$> filter (λ x : ev, fst x = G) e.

(** One operation takes place.  [full] are the traces of all processors and [cur], [cur'] what is
    left of them before and after: all members of [G] have come to an operation of [G], of the
    same kind [o]; no other processor moves. *)
Definition moves (G : wid) (o : op) (e c c' : list ev) : Prop :=
  if decide (G ∈ worlds e) then ∃ x, c = x :: c' ∧ fst x = G ∧ kind (snd x) = o else c' = c.
Definition step (full cur cur' : list (list ev)) : Prop :=
  length cur = length full ∧ length cur' = length full ∧
  ∃ G o, (∃ e, e ∈ full ∧ G ∈ worlds e) ∧
         ∀ i e c c', full !! i = Some e → cur !! i = Some c → cur' !! i = Some c' → moves G o e c c'.
(** every processor has come to the end *)
Definition finished (cur : list (list ev)) : Prop := ∀ c, c ∈ cur → c = [].
(** whatever has happened so far, either all have finished or something can still happen *)
Definition deadlock_free (full : list (list ev)) : Prop :=
  ∀ cur, rtc (step full) full cur → finished cur ∨ ∃ cur', step full cur cur'.
(** no execution comes to the end *)
Definition never_finishes (full : list (list ev)) : Prop := ∀ cur, rtc (step full) full cur → ¬ finished cur.

(** the traces of all [p] processors *)
Definition traces (W : wid → Z * Z) (m : metric) (k p : Z) : option (list (list ev)) :=
  mapM (λ s : nat, rb_ops W m k p (Z.of_nat s)) (seq 0 (Z.to_nat p)).
