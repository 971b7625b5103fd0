# Formal model of unpythonic in Rocq

## Approach

Shallow, executable Gallina models of the Python functions, one area per group of
files in `rocq/theories`: `XModel.v` (definitions only, each citing the modelled
lines of `/repo`), `XSpec.v` (the independent specification, where the statement
needs one), `XProofs.v` (lemmas), `XProps.v` (the property theorems, each closed by
`exact`, with `Print Assumptions` beneath and an `Example` of a non-trivial case
satisfying the hypotheses).  Exceptions are values.  Loops without a structural
bound take explicit fuel and have an explicit out-of-fuel result that the theorem
statements exclude.  Where the full English property is false of the code as it is,
a theorem with the suffix `_refuted` exhibits a witness, and the strongest true
version is proved beside it (suffix `_partial` where something is missing).

## Trusted base

* Coq 8.16.1's kernel (and `vm_compute` where used; it is part of the kernel).
* `Print Assumptions` for each theorem: see the section "Assumptions" below.
* The faithfulness of the models, which are written by hand from the source text.

## Plan per property

* **C01** Message codec round trip for every payload and chunking. Files: Msg. byte lists, chunk lists as the source, the decoder's loops with fuel; decode over any chunking by induction on chunks. The full claim is false (4096-byte header window): refutation plus the strongest true version.
* **C02** Message decoder delivers a sequence of messages in order and resynchronizes over junk. Files: Msg. decoder state = (buffer, remaining chunks); invariant: buffer ++ concat chunks = rest of stream; induction over messages.
* **C03** Byte sources and helpers preserve the data stream. Files: Msg. bytessource / recvall / netstringify as list functions; recv as adversarial fragmentation.
* **C04** A view is live and equal to the Python slice of the current sequence. Files: Slice, View. Python slice semantics as a spec (clamping + range), view as (slice, cached range, cached length) over a mutable list; history = list of mutations and reads.
* **C05** Nested views (views of views) are live as well. Files: View. same, nested; refutation by a concrete history, positive theorem for views whose underlying length change propagates.
* **C06** Writes through a view change exactly the viewed positions. Files: View. writes as list updates; pointwise characterization of the final list.
* **C07** in_slice and index_in_slice agree with Python's own slicing. Files: Slice. Z arithmetic; spec = membership in Python's range; refutation for start = length with a negative step.
* **C08** Functional update is pointwise replacement and never mutates the original. Files: Fup. ShadowedSequence chain as an inductive lookup; spec = pointwise update.
* **C09** Several functional updates apply left to right, later ones winning. Files: Fup. fold of single updates.
* **C10** islice with slice syntax agrees with Python slicing. Files: ISlice. lists for finite iterables; branch by branch model; spec = Python slicing. Corner-case refutations where they disagree.
* **C11** frozendict: construction merges left to right, lookups agree with dict, and later mutation of the sources has no effect. Files: Coll. association lists with dict.update semantics; heap of mutable dicts for snapshot independence.
* **C12** mogrify maps every leaf and preserves the container shape. Files: Coll, MogProofs. inductive container type; structural induction.
* **C13** box and ThreadLocalBox: the value read is the last one written, per thread for the thread-local kind. Files: Coll. state machine over (thread, op) histories; spec = last write.
* **C14** Linked lists: conversion, reverse, append and zip are the list operations. Files: LL. inductive cons trees; list laws.
* **C15** Cons structure iterators visit every leaf exactly once. Files: LL. iterators as worklist machines; order claim is false (refutation), permutation proved.
* **C16** Folds and scans obey their defining equations. Files: Fold. lists of input columns; induction.
* **C17** unfold and iterate generate the orbit. Files: Fold. coinductive-free state machines, first n outputs.
* **C18** prod, running_minmax and minmax compute what they say. Files: Fold. Z-valued; induction.
* **C19** take, drop and split_at partition an iterable. Files: Itr. finite lists and nat-indexed lazy iterables.
* **C20** window and chunked cover the input as documented. Files: Itr. lists.
* **C21** flatten family. Files: Itr. nested inductive.
* **C22** uniqify and uniq. Files: Itr. lists with a key function; spec by positions.
* **C23** inn decides membership in infinite monotone iterables. Files: Itr. infinite iterables as nat -> Z with fuel; termination under 'eventually passes'.
* **C24** Reversing map and zip variants commute as documented. Files: Itr. lists.
* **C25** interleave, partition, subset, powerset, allsame. Files: Itr. lists.
* **C26** Integer partitioning enumerates exactly the compositions. Files: Num. recursive enumeration; soundness, completeness, NoDup.
* **C27** env: bindings behave like attributes and finalize freezes the set of names. Files: Env. operations over association list + finalized flag; invariant over histories.
* **C28** assignonce binds each name at most once except through explicit rebinding. Files: Env. same with the assignonce overrides; constructor problem as refutation.
* **C29** Dynamic assignment is lexically nested and always restored. Files: Dyn. small imperative language with let/read/set/raise; big-step with exceptions; restoration by induction.
* **C30** Dynamic assignment is per thread. Files: Dyn. per-thread stacks with heap-allocated scopes; interleaving.
* **C31** Memoized generators: every instance sees the same sequence and each item is computed once. Files: Memo, Gmemo. shared memo + instance counters; interleaving at next() granularity (lock held).
* **C32** Sharing one memoized generator instance between threads does not lose items. Files: Memo, Gmemo. finer interleaving model; refutation by a schedule.
* **C33** memoize computes each distinct argument binding at most once, also under threads and recursion. Files: Memo, Bind (which calls share a key). call histories with per-key locks, step semantics over schedules.
* **C34** forall is nested comprehension; MonadicList obeys the monad laws. Files: Amb. lists; nested comprehension spec.
* **C35** throw reaches the nearest matching catch. Files: Ec. language with catch/throw; big-step; spec = nearest match on the stack.
* **C36** call_ec: the escape continuation always reaches its own call_ec. Files: Ec. same with gensym tags.
* **C37** Trampolining gives the result of direct tail calls in constant stack. Files: Tco, Gtco. oracle functions returning Jump/Done; fuel; equivalence with direct recursion; depth counter.
* **C38** gtco: a generator tail-chain yields the concatenation. Files: Tco, Gtco. generators as output list + return value.
* **C39** fix terminates with bottom on exact cycles and otherwise does not change the function. Files: Fix. call graph programs with visited set.
* **C40** fix bookkeeping is clean after every outermost call. Files: Fix. same with exceptions.
* **C41** Signals are offered to matching handlers from the innermost outward until one takes over. Files: Cond. language with handlers/restarts/signal; big-step with fuel.
* **C42** invoke_restart transfers control to exactly the chosen restart's establishing block. Files: Cond. identity of contexts.
* **C43** error, cerror and warn protocols. Files: Cond. protocol theorems.
* **C44** Handler and restart stacks are balanced. Files: Cond. stack balance by induction over evaluation.
* **C45** A handler that declines has no effect on the search, whatever it did inside. Files: Cond. deque iteration with a mutation counter; refutation.
* **C46** Currying: any grouping of the arguments gives the same result as one call. Files: Bind, Curry. signatures as parameter lists, _bind branch by branch; induction over steps.
* **C47** Curry passthrough: surplus arguments go to the result. Files: Bind, Curry. passthrough; refutation for keyword-only parameters.
* **C48** Composition and pipes agree. Files: Fun. Values/plain results; list folds.
* **C49** Values equality and unpacking. Files: Fun. records.
* **C50** Argument rearrangers flip, rotate, tokth, to, apply. Files: Fun. lists, Z.modulo; refutation for the boundary.
* **C51** notf, andf, orf are short-circuiting logic. Files: Fun. lists of predicates with evaluation traces.
* **C52** Multiple dispatch picks the first match, most recently registered first. Files: Disp. registries as lists; MRO lists.
* **C53** isoftype is compositional. Files: Type. inductive types & values; denotation as spec.
* **C54** let, letrec, do: sequential binding semantics. Files: Env. binding lists and state passing.
* **C55** Functional loops equal the corresponding folds. Files: Loop. body oracles; fold equivalence.
* **C56** tryf behaves like try/except/else/finally. Files: Exc. exception class hierarchy as a subclass relation; refutation.
* **C57** reraise maps exceptions by first match and otherwise leaves them alone. Files: Exc. same.
* **C58** sym interning: one live object per name under any schedule. Files: Intern. step model of threads, registry of weak references, GC steps.
* **C59** Singleton: at most one live instance per class. Files: Intern. same.
* **C60** Lazy promises are evaluated at most once. Files: Lazy. promise heap, thunk runs counted.
* **C61** primes yields exactly the primes in increasing order. Files: Math, Seq. state machines; correctness of trial division / sieve.
* **C62** Cauchy product and diagonal reduction. Files: Math, Seq. finite lists & nat-indexed.
* **C63** s() describes the sequence it is given. Files: Math, Seq. rationals/integers; float logarithm detection is idealised, so partial.
* **C64** Termwise arithmetic and simple sequences. Files: Math, Seq. lists.
* **C65** seconds_to_human is exact positional notation. Files: Time. Z.div/Z.modulo.
* **C66** Popper, CountingIterator and slurp. Files: Misc. histories.
* **C67** arities describes exactly the acceptable numbers of positional arguments. Files: Bind. signatures.
* **C68** within and fixpoint. Files: Num. oracle functions over Z or Q with fuel.
* **C69** Stream sources never deliver more than the requested chunk and lose nothing. Files: Msg.
* **C70** Shim redirects attribute access. Files: Coll. objects with attributes and a truth value, boxes holding object numbers; the fallback is ignored when it is false (refutation).
* **C71** Views of dyn are live. Files: Dyn. each view's list of scopes kept beside the stacks; invariant over histories: equal to the thread's stack; views are never released (refutation).
* **C72** resignal converts conditions. Files: Cond. first matching entry decides when the application condition takes control; refutations: `proceed`/`muffle` on the application condition do not reach the original cerror/warn, a target that is a subtype of its source recurses without end.
* **C73** ETAEstimator. Files: Time. Exact rationals; the deque is the suffix of the list of durations.
* **C74** Test sessions. Files: Tset. Framework and suites are programs of the condition system of Cond; a compositional `meaning` (counts, lines, ending) is shown to be what the compiled suite does, by induction on the suite, with an invariant on handlers, restarts and flags.
* **C75** Testset summaries. Files: Tset. A report grammar (`faithful`) in which the numbers of each summary are those of its lines; induction on the suite; one theorem about testset around an arbitrary program.
* **C76** terminate. Files: Tset. Refuted: `testset` itself absorbs TestSessionExit, so only the innermost testset ends. What is true is proved (`_partial`).
* **C77** Stray conditions in testsets. Files: Tset. Exact number of errors for k nested testsets; `counted once` is refuted for signal and error.
* **C78** autoreturn. Files: Py, Aret. A fragment of Python (abstract syntax and interpreter) with completion values; the rewritten program under Python's rule for the end of a body and the program itself under the implicit-return rule are run side by side: equal results, effects and heaps but for the code, by induction on fuel and on the syntax. Where a def or class is the tail of a branch, lines 689-702 put a list in the place of one statement; the theorem takes the list as spliced, which is up to the expander.
* **C89** prefix. Files: Pfx. Expressions with tuples, calls, subscripts, let, do and other nodes. The spec is a relation that gives tuples their meaning directly, as denotations in any domain of values and states; the theorem says that the expression has a meaning iff the macro accepts it, and that the meaning is Python's meaning of the expansion.
* **C90** lazify evaluates arguments when they are used. Files: Lzf. A source language, the expansion (force, force1, Lazy, maybe_force_args) with its three modes, an evaluator of expanded code with a heap of promises, and as spec an evaluator by name of the source. Two simulations, one for each direction, with the expression each promise stands for as ghost state.
* **C91** lazify keeps results. Files: Lzf. As C90, and every value Python computes is found by name.
* **C92** The forall macro. Files: Fam (on Amb). The tree of binds that the macro builds line by line with splicing, an evaluator of it with effects, and as spec nested loops. Induction on the lines.
* **C93** fn. Files: Fnl. Expressions, the transformer with its order of visiting (that of the ast module), the expander outside in, an evaluator of expanded code, and as spec an evaluator of the source which counts the underscores from the left. Simulation through a relation of source and expanded trees that carries the offset.
* **C94** autocurry. Files: Acur. Terms, the transformer with its state hascurry and the detection of decorated lambdas, an evaluator of expanded code with curry_context, and as spec an evaluator of the source in which every function of the block is curried. Simulation by induction on the fuel. A second simulation relates plain Python with the expanded code.
* **C96** partial with type checks. Files: Part, on top of Bind, Type and Disp. An exact characterisation of partial binding for signatures without *args and **kwargs; a completion is constructed when partial binding succeeds.
* **C97** curry's decision for generic functions. Files: Part. The analysis by _bind of a positional call, for definitions with positional parameters, related to Python's binding.
* **C98** autoref. Files: Aref. The source language with blocks, the expansion inside out, an interpreter for the output, and an interpreter for the source that knows the blocks around the code; a simulation by induction on fuel, for the transformers of all the blocks around a piece of code at once.
* **C99** the scope of let variables. Files: Scp. The two passes of scoped_transform over a mini syntax, against a resolver that threads the scopes statement by statement; induction on the syntax, with the sets of shadowed names related up to membership.
* **C100** the order of decorators. Files: Dec. The registry as a fold over registrations; sorting as a stable insertion sort; the tree walk against a relation that says what may change; the suggested index against the positions of the known decorators.
* **C101** cond, aif, multilambda. Files: Ife, on top of Mlet. A surface language with an interpreter of its own; a compositional translation to the language of Mlet; simulation by induction on the program, composed with C81.
* **C102** Forms of let and do. Files: Lvw. Trees of expressions; the recognizers and views as functions with exceptions; the forms as inductive relations between parts and trees. Reading and writing by cases, soundness of the recognizers by inversion; refutations by computation.
* **C103** Expanded forms. Files: Lvx, on the trees of Lvw. The trees that the macros and autocurry make are described by relations (proved of models of the makers); reading and writing by induction on the bindings and items.
* **C104** envify. Files: Evf. A deep embedding of a part of Python with frames and closures, the env objects of EnvModel, the macro as a translation; a simulation between source and expanded program (frames extended monotonically, values related if closures are translations in related scopes), by induction on nested calls and on the syntax; refutations by computation.
* **C105** namedlambda. Files: Nml. A deep embedding of a part of Python where function objects have names that can be set; the macro as its three passes. The expanded program is equal to the source after removing the naming calls (induction on syntax), and removing them preserves runs (simulation, induction on nested calls); names by comparing the passes to a one-pass specification; refutations by computation.
* **C106** test macros. Files: Tms. A deep embedding of a part of Python with test forms; the documented meaning of the forms, and the macros as a function from programs to programs. Simulation between the two (induction on syntax and nested calls); marks removed by a second simulation that relates states up to the recorded lists; refutations by computation.
* **C107** dlet and friends. Files: Dlt (on top of Env). Programs as interaction trees that define, call and use envs; a machine with one env per definition and a log. Invariant by induction on programs and nested calls: each env is the replay of what its function did.
* **C108** nb and dbg. Files: Dbg. A language with functions and both forms of the programs: as written, run as documented, and as expanded by the two macros (dbg inside out, with its block transformer; nb outside in). Proved by simulation of runs, with the block's theprint variable tracked; and a second simulation for the program without dbg. Refuted, with witnesses: starred arguments of print, dbg[] in an argument of print, a dbg[p] block in a dbg[p] block, an nb block in an nb block, nb[value], and a program's own variable theprint.
* **C109** control channel. Files: Ctl, on top of Msg. A server with any number of REPL and control sessions as a state machine over histories of events; a request handled branch by branch, with exceptions that end the session. Interrupts, active sessions and replies are characterised by the history (splits of the event list), by induction from the right. The wire: talk, over the message decoder, by the round trip of C01. Refuted: an empty object, or an id that is a list, gets no reply.
* **C110** bg and fg. Files: Ctl. The table of results over histories. Refuted for threads: fg tests `"ident" not in thread`, and a Thread is not a container.
* **C111** infix arithmetic. Files: Inf. Iterators as cells of a heap, Python's dispatch to methods and reflected methods, an expression language; a relation between an iterator and the sequence it has yet to yield, with the cells it touches, kept apart (as in separation logic) as long as no generator occurs twice. Refuted: a + a for a generator; pow(2, a, 5).
* **C112** client. Files: Cli. The source is the list of chunks; the client's actions are a list of events. Induction over the rounds of a dialogue. Refuted: a prompt cut in two is not recognised; a piece of output ending with the text of a prompt is taken for one; a piece that ends within a character crashes the client.
* **C113** let over def. Files: Dlm. A small language with functions, decorators and default values; the macro's two passes over the tree are one syntactic pass (DlmSimProofs), and the expanded program is related to the source program by a simulation whose relation says which env a name is in. dletseq is proved equal, as a tree, to the nested functions. Refuted: a local variable shadows a let variable only from the next statement of the function on, against the documentation (and not at all inside the `if` that assigns to it); default values and decorators that mention a name of the function's own let fail with NameError; `def h(x=x)` inside the let takes the default from outside it; a parameter does not hide the first variable of a dletseq; later variables of a dletseq do not keep their values between calls; its parameters cannot be assigned to; its decorators are applied in each call.
* **C114** getattrrec, setattrrec. Files: Oni. Heap of attribute dictionaries; the innermost layer is an inductive relation; the three lens laws by induction on it; a ring of objects makes both run for ever, decided within as many rounds as there are objects (pigeonhole). Refuted: a default that itself has the attribute is not returned, its innermost layer is; a written wrapper with the same attribute is not read back.
* **C115** pickling. Files: Pkl. Heaps of objects with the registries of interned objects; pickle's algorithm as a recursive function with a memo on each side; simulation between saving and loading whose invariant is the one-to-one list of objects and copies. Refuted: ThreadLocalBox (its threading.local cannot be pickled) and Shim (unpickling calls its __getattr__ before it has a box: endless recursion, the defect that env had and env.__new__ cures); lists longer than the recursion limit; attributes of an existing singleton that the pickled one did not have are not overwritten.
* **C116** printing of linked lists. Files: Lrp. The printers produce strings, with the levels of recursion left as a parameter; the specification is a reader of Python expressions and a reader of Lisp's dot notation, both on strings; round trip by induction on the recursion level. Refuted for lispyrepr: the items of a list are printed by repr, so nested lists come out as a mixture.
* **C117** unit in the last place. Files: Ulp. Floats as rational numbers m*2^e; log2 as any function whose result is a float with no other float between it and the logarithm, where comparison with a logarithm is stated with integer powers, so that no real numbers are needed; Bernoulli's inequality. Refuted just below powers of two from 8 on (twice the right value, for every correctly rounded log2), for the largest float (OverflowError) and for subnormal floats (0).
* **C118** tracebacks of conditions. Files: Tbk. The call stack as a list of frames with line numbers, exceptions as a heap; a traceback is read by following tb_next. Induction over the stack for the chain of tracebacks; what signal and its protocols do to the heap is stated for any handlers. Refuted: None as a condition is an AttributeError; the message about an invalid cause mentions the condition; signaling an instance without a cause clears the cause it has; warn(SomeWarning) (a class) emits a generic Warning with the text of the class.
* **C119** proxy between terminal and socket. Files: Pty. The operating system chooses the sizes of reads and writes and the errors, as events; invariants over all histories: what was taken, what is pending and what was lost make up what was said. Refuted: a send that takes only a part loses the rest (its result is ignored); stop() loses output that is still in the buffer; BrokenPipeError kills the thread without the callback; callbacks that are documented as optional are called as None; stop() without start leaves the terminal open.
* **C120** life of the REPL server. Files: Srv. The module's globals and sys as one record, start with its two points of failure. Invariant over all histories without failures; refuted for a start whose control port is taken (the streams stay replaced, stop does nothing, a new start fails), and for streams redirected between import and start.
* **C121** almosteq of floats. Files: Aeq. The arithmetic of Coq.Floats.SpecFloat (the standard library's executable IEEE 754, no axioms), 53 bits; rounding is related to rational numbers (AeqRound): half a unit in the last place, exactness of small sums, overflow. Two ints: exact difference and sum, correctly rounded quotient; refuted: ints further apart than 2^1024 raise OverflowError. A mix of int and float, and mpmath, are not modelled.
* **C122** dyn is a mapping. Files: Dmp. The class's own attributes, which attribute lookup finds first; collections.ChainMap over the scopes. Proved against a relation 'innermost scope that has the name'. Refuted: variables named like a method can be bound but not read; dyn[missing] raises AttributeError although dyn is a Mapping; assignment through a view of dyn binds in the innermost block.
* **C123** async_raise hits the thread it is given. Files: Asy. A history of events: threads made, started, given an ident, leaving threading._active, deleted, looking for an exception; calls in two steps, between which anything may happen. Invariants over histories: existing threads have different idents; every exception comes from a call that returned; counts. Refuted: reuse of idents; an exception replaced or lost; TypeError for an unstarted thread.
* **C124** The scope analyzer's collectors. Files: Sto. Trees of nodes of any kind, with the fields of scopes grouped by where they are evaluated; the spec is the Python reference as inductive relations (binds, deletes, declares). Structural induction; the conditions are stated node by node, each shown necessary by a refuted case.
* **C125** The handler and restart stacks of many threads. Files: Cst. One deque of each kind per thread, blocks that keep the deque of the thread that made them; the spec is the list of open blocks computed from the history. A simulation for isolation, an invariant by induction over histories for what is found.
* **C126** Registration and listing of multimethods. Files: Lmt, on Disp. Histories of decorators; which are accepted is proved from the state of the registry by induction over histories; the listing is compared with calls through the lemmas of C52.
* **C127** Cleaning up of a REPL session. Files: Ses. The handler as a program of steps with try, finally, except and with; each step may fail before or after its effect. Proved with lemmas on what programs preserve, for arbitrary functions from steps to failures.
* **C128** imemoize and fimemoize. Files: Imz. Iterators as states in a list, which others may advance too; generators around them; memos and instances. Proved with an invariant that relates each memo to the sequence of the first call with its key, and says which memo uses which iterator.
* **C129** with quicklambda. Files: Qkl. Trees of any syntax with macro uses; the result is compared with the text by a relation (`reads`), proved by induction on the expansion; no fn[...] left, distinct names, identity without fn[...], termination.
* **C130** laziness of the iterator tools. Files: Lit. Each tool as a (possibly infinite) process that reads from iterators and gives items; a promise says, as a function of the items read, what has been given, whether the tool reads on, and what comes at the end of the input; that all runs keep it is proved by coinduction.
* **C131** partition read in any order. Files: Ptn. Two copies of the input (tee) with positions in the list of the items read, any iterator as input, any predicate; requests as a relation; invariant by induction over the session.
* **C132** chunked read in any order. Files: Chk. The generator, the chunks it has given out (pending first item, rest of the islice) and the calls of the input; invariant by induction over the session: who owns which item. That the chunks have constant length only if read in turn is `C132_any_order_refuted`.
* **C133** laziness over several iterables. Files: Lfo. The processes of C130 with numbered inputs: zip and zip_longest as loops that ask one iterator after the other; a promise says what has been given and what happens next as a function of the history; kept by every run, by an invariant on the row in progress. Not covered: going on with a tool after it has ended or raised.
* **C134** mogrify with a function that raises. Files: Mgx. The structure as a tree with the identities of its mutable containers; mogrify as a state-passing recursion that records calls and may fail; induction over trees, with a frame argument for the containers that are not touched. Not covered: views and dictionary views.
* **C135** the REPL client and Ctrl+C. Files: Cic. The loop of connect as a machine with one step for each place where KeyboardInterrupt makes a difference; runs are lists of steps and interrupts; invariants on what has been taken, what is pending and what has been shown; refinement of the loop of C112. The control channel as a queue of replies. Not covered: interrupts during the handshake, BrokenPipeError.
* **C136** block objects of dyn. Files: Dbo. Blocks as objects with bindings, the stack as a list of objects that may repeat; simulation with a reference semantics in which making a block makes locations (induction on programs; objects have disjoint locations); for blocks entered once the reference semantics is that of C29; invariants for the rest. One thread.
* **C137** let and letseq of simplelet.py. Files: Slm. Macro expansion as a function on trees, a Python evaluator with frames, cells, local variables by assignment and closures; a big-step relation for programs with let and letseq as the specification; simulation in both directions (induction on derivations and on fuel).
* **C138** dyn in interleaved code. Files: Dgn (on Dbo). A machine over events (code, operation) with the stack of dynassign.py and Python's with-frames of each code; the specification keeps the list of open blocks and removes the one that is left. Refinement for last-in-first-out event lists, an invariant on the number of scopes for all event lists, and a theorem on the first block left out of order.
* **C139** traversals. Files: Utl. Trees with lambdas, functions, calls, do forms and other nodes; the visitors as recursive functions with exceptions; specifications by an inductive relation of being part of a tree, and expansion of do forms as a relation between trees.
* **C140** reports of exceptions. Files: Dex. Exceptions with identity in a heap; the report as a recursive function with fuel for the recursion limit; the specification is a relation of what led to what, from the first exception on.
* **C141** timers and call sites. Files: Tmr. Histories of operations on timers with a clock that only advances by waiting; the specification is the sum of the waits in the block. Call stacks as lists of frames.
* **C142** invoker. Files: Ivk, on the model of Cond. The handler as a function on conditions; the theorems compose the search for handlers, the lookup of restarts and the unwinding.
* **C95** regrouping. The same evaluator of the source, and a relation that merges and splits calls anywhere; simulation up to the nesting of partial applications and a permutation of the effects.
* **C86, C87, C88** let_syntax, abbrev. Files: Lsyn. Syntax trees with names, calls, subscripts, other nodes with identifiers and children, and statements. The code walks into what it has just put in, so it need not end: the model counts nested visits, and the theorems say that from some number on the result is that of simultaneous substitution (a small recursive function), or that no number suffices.
* **C83, C84, C85** continuations. Files: Mcont. The transformation (returns, call_cc[], missing returns, default arguments) is modelled from syntax to syntax, and the result runs on a model of jumps, trampolines, chain_conts and Python's scopes, with frames in a heap. The specification is a machine whose values include continuations (identity, the rest of a function, one after another). There is a function from the machine's values to those of the expanded program, and both have the same heap, so the theorem is an equation, by induction on the steps. The machine can be told to stop where the implementation is known to differ; each such place is shown to matter. C85: an invariant on all values in the heap.
* **C81, C82** let and do. Files: Mlet. The expander (inside out for let, outside in for do) and the transformation of names and assignments are modelled on an expression language; the expanded code runs on the env of C27. A denotation of the expansion in terms of the layers of scopes is proved equal to what the expander produces; a simulation relates frames of the source semantics with env objects (induction on fuel, then on syntax). C82: induction on fuel against a size that every macro step decreases.
* **C79, C80** `with tco`. Files: Py, Mtco. The rewriting of function definitions, returns and lambdas is modelled on the fragment of C78 with a trampoline as in tco.py. The plain and the rewritten program are run in lockstep (induction on fuel, then on syntax): a tail call in the one is a jump in the other. C80: the interpreter with a limit on nested calls agrees with the one without; and, for programs that make other calls too, the rewritten program under a limit is in lockstep with the plain one in an interpreter with proper tail calls under the same limit (PtcSpec). The exceptions are refuted by examples.

## Files and coverage

Prefix of the files in `rocq/theories`, the code it models, and what is left out there.
`Base.v` has the outcomes (`Ok`/`Raise`) and list helpers that all areas share.

* **Slice, View, Fup** collections.py 579-954, fup.py. Sequences are lists; the isinstance checks are typing.
* **ISlice** slicing.py 12-91. Finite iterables.
* **Coll, Mog** collections.py: frozendict, box, ThreadLocalBox, Some, Shim, mogrify. Hash functions are not modelled.
* **LL** llist.py. Pickling is not modelled.
* **Fold, Itr** fold.py, it.py. Laziness (how much input has been consumed when an item is produced) only where a definition returns the unconsumed rest.
* **Num, Math, Prime, Seq** numutil.py, mathseq.py. Exact arithmetic in place of floating point; the power sequences of `s` and logarithm tests are not modelled; mpmath and sympy branches neither.
* **Msg** net/msg.py, net/util.py. Blocking is not modelled.
* **Env** env.py, assignonce.py, let.py, lispylet.py, do, do0, begin, begin0, lazy_begin, lazy_begin0 of seq.py.
* **Dyn** dynassign.py, with interleaved threads.
* **Memo, Gmemo** gmemo.py and memoize of fun.py, with interleaved threads.
* **Amb** amb.py. **Ec** ec.py. **Tco, Gtco** tco.py, gtco.py (strict code). **Fix** fix.py (one thread).
* **Cond** conditions.py (one thread; `available_handlers` is not modelled).
* **Bind** arity.py, with the part of `inspect` it uses. **Curry** curry of fun.py for functions that are not @generic and have no annotations. **Part** the type checks of partial (fun.py 110-176) and the decision of curry for @generic functions (fun.py 522-576). **Fun** the rest of fun.py, funutil.py's Values, pipes of seq.py.
* **Type** typecheck.py for Python 3.9 or later. **Disp** dispatch.py (except the texts of error messages).
* **Loop** fploop.py. **Exc** excutil.py (raisef, tryf, reraise_in, reraise). **Intern** symbol.py, singleton.py with interleaved threads.
* **Lazy** lazyutil.py, class Lazy. **Time** timeutil.py with exact rationals. **Misc** Popper, CountingIterator, slurp of misc.py.
* **Tset** test/fixtures.py (session, testset, catch_signals, terminate, summarize's assertions) and the run-time functions of syntax/testingtools.py; texts of messages, colours and the values captured by the[] are not modelled.
* **Py** a fragment of Python as abstract syntax with an interpreter: closures, lambdas, classes as namespaces, if, while, try, with, and/or, calls with positional arguments, a limit on nested calls.  PtcSpec: the same with proper tail calls. **Aret** autoreturn and **Mtco** tco of syntax/tailtools.py on that fragment.
* **Mlet** let, letseq, letrec, do, local, delete of syntax/letdo.py on an expression language, run with the env model.
* **Mcont** continuations, call_cc, chain_conts, get_cc of syntax/tailtools.py on a fragment of Python, run with a model of jumps, trampolines and scopes.
* **Lsyn** let_syntax, abbrev (syntax/letsyntax.py) and eliminate_ifones of syntax/util.py on syntax trees without macros.
* **Pfx** prefix (syntax/prefix.py) on expressions; statements, and the `with` block around them, are not modelled.
* **Lzf** lazify (syntax/lazify.py 436-590, 605-842), Lazy, force, force1, maybe_force_args of lazyutil.py, on expressions without assignments, attributes, keyword arguments and mutable containers.
* **Fam** The macro forall (syntax/forall.py) and the bind of MonadicList with effects (amb.py 205-363).
* **Fnl** The macro fn (syntax/lambdatools.py 128-164, 422-442) on expressions without comprehensions.
* **Acur** The macro autocurry (syntax/autocurry.py, syntax/util.py 121-244) and curry on functions with positional parameters (fun.py 195-465).
* **Aref** The macro autoref (syntax/autoref.py) on programs without let and do.
* **Scp** the scope analysis (syntax/scopeanalyzer.py) as the let macros use it, for functions, lambdas, comprehensions, compound statements, global, nonlocal and del; the body transformation of @dlet and @dletseq.
* **Dec** The decorator registry (regutil.py) and the ordering of decorators (syntax/util.py 119-339, syntax/nameutil.py 52-96).
* **Ife** cond, aif, `it`, multiple expressions in brackets and multilambda (syntax/ifexprs.py, lambdatools.py 246-257, letdo.py 939-956), as a translation into the language of Mlet; variables called `it` and a cond of one part are left out.
* **Lvw** the recognizers and views of unexpanded let, do and assignment forms (syntax/letdoutil.py 28-615), on trees of expressions; `where` and the macro names are compared by name.
* **Lvx** the recognizers and views of expanded let and do forms (letdoutil.py 177-192, 296-304, 617-885), the trees that the macros make (letdo.py 399-417, 540-554, 913-919) and autocurry of those.
* **Evf** the envify macro (syntax/lambdatools.py 444-546), on a part of Python: functions and lambdas with positional parameters and defaults, decorators, if, for, comprehensions, nonlocal. Not: starred and keyword parameters, del, classes, async functions, captured values, nested envify blocks.
* **Nml** the namedlambda macro (syntax/lambdatools.py 259-412) and namelambda (misc.py 54-123), on a part of Python: functions and lambdas with positional parameters and defaults, keyword arguments, let, dict displays. Not: the expansion of other macros between the passes (autocurry, let), captured values, curry in its expanded form; a dict display keeps all its items.
* **Tms** the macros test, the, fail, error, warn and test_raises (syntax/testingtools.py 785-1043), on a part of Python, and the asserters they call (503-778). Source text is the syntax tree. Not: test_signals, line numbers, captured values, expand_testing_macros_first.
* **Dlt** the decorators dlet, dletrec, blet, bletrec (let.py 255-274, lispylet.py 252-268). The env does not leave the body; bodies are programs over the operations of Env.
* **Dbg** the macros nb (syntax/nb.py 48-72) and dbg (syntax/dbg.py 113-246), on a part of Python in which functions see their own and global variables. Source text is the syntax tree; an output is a list of values or of (source, value) pairs. Not: the layout of the printed text, dyn.dbgprint_expr other than the default, print functions of nb that are not names.
* **Ctl** the control channel of the REPL server: ControlSession.handle, the table of active sessions of ConsoleSession.handle, bg and fg (net/server.py 237-284, 304-425, 433-500), ControlClient (net/client.py 76-142), ApplevelProtocolMixin (net/common.py). A request is handled in one step; JSON numbers are integers; json.dumps, json.loads, the completer and async_raise are parameters; the texts of error messages are shortened.
* **Inf** infix arithmetic on sequences: imathify, gmathify and the termwise operations (mathseq.py 459-749), with consumable iterables. Not: iterables whose elements are iterables.
* **Cli** the loop of the REPL client (net/client.py 145-274, connect). The stream from the server is the list of pieces in which it arrives; whether bytes are UTF-8 text and the search for the session number are parameters. Ctrl+C is in Cic.
* **Dlm** dlet, dletrec, blet, bletrec, dletseq, bletseq (syntax/letdo.py 213-346, 418-486, 497-624; scopeanalyzer.py 98-164; lispylet.py 221-268). Not: del, global, nonlocal, comprehensions, `:=` to other variables.
* **Oni** getattrrec and setattrrec (misc.py) on heaps of objects with attribute dictionaries
* **Pkl** pickling of frozendict, env, sym, gsym, Singleton, cons, box, Some, Shim, ThreadLocalBox (collections.py 241-281, 359-450; env.py 52-98; symbol.py 61-132; singleton.py 126-188). The algorithm of pickle is modelled; not: tuples, sets, classes with their own __reduce__, __getstate__ or __setstate__, keys with a structural hash.
* **Lrp** `cons.__repr__`, `cons.lispyrepr` and `Nil.__repr__` of llist.py: all of it, on atoms that print as one word.
* **Ulp** `ulp` of numutil.py on floats; log2 of the C library is a parameter.
* **Tbk** excutil.py `equip_with_traceback`; conditions.py `_prepare_signal_instance`, and the tracebacks of `signal`, `error`, `cerror`, `warn`.
* **Pty** net/ptyproxy.py: all of it; the operating system is a source of events.
* **Srv** net/server.py `start`, `stop`, `halt`, `main`, and the bookkeeping of `ConsoleSession.handle`.
* **Aeq** `almosteq` of numutil.py on floats, with the rounding of IEEE 754, and on ints; not on an int and a float, and not the mpmath branches.
* **Dmp** dynassign.py: dyn as a mapping, and its views as ChainMaps.
* **Asy** async_raise (excutil.py) in histories of threads and calls.
* **Sto** the collectors and get_lexical_variables of syntax/scopeanalyzer.py, on whole syntax trees.
* **Cst** handler and restart stacks per thread: `_Stacked`, `Restarts`, `handlers`, `_find_handlers`, `find_restart`, `available_restarts`, `available_handlers` (before the sort).
* **Lmt** registration and listing of multimethods: `isgeneric`, `list_methods`, `getfunc`.
* **Ses** `ConsoleSession.handle` with failures at each step.
* **Imz** `imemoize`, `fimemoize`: iterators, the generators around them, memos and instances.
* **Qkl** `quicklambda` with `fn`, on trees of any syntax with other macros.
* **Lit** laziness of the tools of `it.py`: what they read of their input and when, failures of the input, as possibly infinite processes.
* **Ptn** `partition` with its two outputs read in any order, failing inputs and predicates.
* **Chk** `chunked` with its chunks requested and read in any order, failing inputs.
* **Lfo** laziness of the folds, scans, maps and zips over several iterables: which iterable is asked and when, failures, as possibly infinite processes.
* **Mgx** collections.py 41-152: mogrify once more, with the calls it makes and a function that may raise; Values included. Views (SequenceView, MutableSequenceView, MappingView) are left out, and the items of sets are assumed hashable.
* **Cic** net/client.py 223-343: the loop of the REPL client with KeyboardInterrupt at any moment. The handshake is in Cli; BrokenPipeError is left out. Also the control channel (net/client.py 76-142) with interrupted requests; that a reply arrives in one piece is assumed there.
* **Dbo** the blocks of dynamic assignment as objects (dynassign.py 37-49, 146-216): kept, entered again, entered while entered; one thread.
* **Slm** the macros let and letseq of syntax/simplelet.py, on expressions with lambdas, calls and assignment expressions.
* **Dgn** dynamic assignment in interleaved code of one thread (dynassign.py 37-49, 146-216, 268-292): blocks left in any order.
* **Utl** the traversals isec, detect_callec, detect_lambda and transform_statements of syntax/util.py.
* **Dex** the report of an exception and its causes (test/fixtures.py 405-448).
* **Tmr** timer and callsite_filename (misc.py 125-153, 287-304).
* **Ivk** invoker (conditions.py 332-417), on Cond.

Not modelled at all:

* The macros (syntax/, dialects/), which rewrite program texts at compile time, but for autoreturn, tco, continuations, let, do, dlet and its kin, the let and letseq of simplelet.py, let_syntax, abbrev, prefix, lazify, forall, fn, autocurry, autoref, cond, aif, multilambda, envify, namedlambda, nb, dbg and the test macros.
* Of the REPL server and client, the sockets and threads themselves; the console (net/server.py), the readline interface of the client (net/client.py connect).
* Floating point other than in `ulp` and `almosteq`, hashing, garbage collection other than of interned objects, and the interpreter's recursion limit except where a theorem mentions it.

## Assumptions

`Print Assumptions` under every theorem of the `*Props.v` files prints "Closed under the
global context": no axioms, neither of our own nor of the standard library.  `coqchk -o` on the
whole development lists, under axioms, the seven fields of `Coq.ssr.ssrunder.Under_rel`; they
are the standard library's (a module type's fields inside an opaque module, loaded with
ssreflect through the arithmetic tactics) and no theorem here depends on them.  No kernel
check is switched off and there are no `Admitted` proofs, functors or module types.

## What is partial and what is false

For the claims with status `partial` in `MANIFEST.json`.  Every "refuted" is a theorem with that
suffix, whose witness is a run of the model; these are findings about the code.

* **C01** False as stated: once 4096 bytes are buffered before the end of the header has been seen (default chunk size and a message of 4096 bytes or more), decode raises UnboundLocalError. Proved for all chunks that together with the header fit the window; the bound is tight.
* **C02** Holds within the same window bound and for junk in which no message seems to start; refuted beyond the bound (leftover data of one message breaks the next). Refuted for messages of other senders too: a length that is no number raises ValueError on every later call, and a negative one cuts at a place counted from the end of the buffer.
* **C05** Refuted: view(lst)[-3:][1:], read once and followed by an append, keeps showing the old positions. Proved whenever the length of each inner view determines what the next one selects.
* **C07** False for exactly one kind of slice: negative step and start = length. Proved everywhere else.
* **C08** Same exception as C07 for slices; single indices and mappings are proved in full.
* **C10** Refuted for a negative start with a positive stop before it (AssertionError) and a negative index before the start (gives the first item); proved otherwise.
* **C12** Proved for structures in which no mutable container occurs twice. Refuted: shared containers are mapped twice, a self-containing list recurses without end, set size is not preserved.
* **C14** Everything proved; the one exception is llist() of a partly consumed reverse iterator, which gives all items.
* **C15** Leaves are visited exactly once; left-to-right order is false for cells with a cell on the left and a leaf on the right, and proved for all other trees.
* **C23** False for an infinite constant iterable that begins beyond x; proved otherwise.
* **C27** update and setdefault accept invalid or reserved names, and names of env's own methods cannot be read back; proved otherwise.
* **C28** The constructor with bindings always raises, and update() rebinds silently; proved for all other operations.
* **C29** Holds for properly nested blocks with any exceptions; refuted for blocks interleaved by a suspended generator.
* **C30** Per-thread push and pop proved; refuted: the copy is made at first use in the thread, and the scopes themselves are shared.
* **C31** Proved per generator; refuted: overlapping calls of the generator function can make two generators for the same arguments.
* **C32** Refuted by a schedule of two threads. See C31 for what holds.
* **C33** Proved for functions that do not call themselves with the same binding while it is being computed, and, for the sharing of keys, without a **kwargs parameter; both exceptions are refuted.
* **C34** Proved for distinct names and bodies that do not raise; refuted: shadowed names leak, TypeError in a body is swallowed, StopIteration becomes RuntimeError, insist does not guard later lines, nil items break the laws.
* **C35** Proved for hashable tags; refuted for unhashable ones.
* **C38** The yielded sequence is proved; refuted: an iterable last value is not returned, a TypeError in the last batch is swallowed.
* **C39** Proved without memo, and for functions without cycles; refuted: with memo cyclic results depend on earlier calls, fixtco after an exception reports a false cycle, bottom gets arguments of another function.
* **C40** Clean after every outermost call is proved; refuted for inner fixtco calls that raise.
* **C42** Proved except for a restart function that invokes its own name (refuted), and a StopIteration from a restart function, which comes out as RuntimeError because restarts is a generator (refuted).
* **C45** Proved for handlers that decline without using `with handlers` or signalling; refuted otherwise (RuntimeError).
* **C46** Proved for functions with fixed parameters and at most two steps before the last one. Refuted beyond: the third step that leaves a parameter unbound raises TypeError (partial calls typing.get_type_hints on a functools.partial object), so curry(f)(1)(2)(3)(4) fails. This relies on CPython keeping partials of partials nested once they have a __dict__.
* **C47** Proved for positional parameters and at most two steps before the last one (see C46); refuted with keyword-only or **kwargs parameters, early surplus names, and at the top level when the first result is callable.
* **C48** Agreement proved where no function returns a one-item Values; five refutations (one-item and empty Values, no functions, curry context of composerc and of piped).
* **C50** tokth with k = -n (tolast on one argument) raises IndexError; everything else proved.
* **C52** Functions proved in full. Methods: for true objects with linear inheritance; refuted for falsy objects, diamonds, super(), and empty *args: Tuple[int, ...].
* **C53** Compositionality is proved in full; refuted at the leaves: classes that derive from builtin containers, and empty list and dict.
* **C54** let, letrec, do are proved; do0 with a first assignment to a method name is refuted.
* **C56** Proved when the body does not raise or some handler matches; refuted otherwise: the exception is swallowed.
* **C57** reraise_in in full; the block form when no target is StopIteration (refuted: becomes RuntimeError).
* **C58** Uniqueness under every schedule is proved; refuted: sym() can raise KeyError with two threads and deadlock with a finalizer inside the lock.
* **C59** Proved for all schedules without signal handlers inside the constructor; refuted with them, and for concurrent unpickling.
* **C60** Proved for one thread and acyclic promises whose thunks end with a value other than the marker symbol or an Exception; four kinds of exceptions refuted, and threads.
* **C63** Proved for exact fractions; int terms accepted approximately are refuted; the floating-point power test is not modelled.
* **C65** Proved; format_human_time of negative times is refuted.
* **C67** Plain functions proved; refuted for generic functions (range not exact, named arguments) and bound methods without self.
* **C69** Nothing is lost (proved); the bound on the chunk size is refuted.
* **C70** Proved for fallbacks that are true objects; refuted for falsy ones.
* **C71** Liveness proved; refuted that views are released.
* **C72** The order and the first match are proved; refuted: proceed and muffle do not reach the original, a target that is a subtype of its source recurses without end.
* **C73** Proved for keep_last >= 1 or None; refuted for keep_last = 0.
* **C76** Proved: the testset in which terminate is called ends at once. Refuted: testset absorbs TestSessionExit (fixtures.py 694-695), so the rest of the session is run.
* **C77** Proved for cerror and warn; refuted for signal and error, which every enclosing testset counts again.
* **C79** Proved for programs where no tail call is inside a try or with body, no `and` in tail position may yield a false value other than False, and only functions are called. Refuted without these: a tail call in a try body escapes its handlers; finally and __exit__ run before the tail call; `x and f()` gives False for a false x; calling a non-function gives RuntimeError, not TypeError; functions with the names of escape continuations lose their return value.
* **C81** Proved for programs in which every `x := v` is for a let or do variable, other than one which the surrounding local[] is just declaring (refuted for these), and whose variables do not have names of env's methods. do0, dlet/blet, comprehensions and the older binding syntaxes are not modelled.
* **C82** The theorem C82_accepts is complete for the fragment. Refuted against the documentation: shadowing of a do's variable by an inner let or do, and local[] in the bracketed body of a let inside a do, are SyntaxErrors.
* **C83** Proved for runs that do not come to one of six places, each refuted: a second call_cc[] in a function that was itself called with a continuation (the rest of the caller never runs), call_cc[None] there (the rest of the caller runs twice), a composed continuation that is called by hand or is the parent continuation (a TypeError, or a jump object instead of a value), and identity called with a continuation (a Values object that contains the continuation), `return a and f()` with a false a other than False (gives False), and a tail call in the body of a try statement (escapes its handler). let and do in return values, finally, break, continue, and cc as an explicit parameter are not modelled.
* **C86** Refuted when the right hand side has the name itself in it (x << g(x)): the expansion never ends. Otherwise proved.
* **C87** Proved when no parameter's name is in the code the template is used on. Refuted otherwise: arguments are put in one after the other, so f[a, b] << a - b makes f[b, c] into c - c; f[a] << g(a) on f[h(a)] never ends; and a template that is just its parameter leaves f[f[x]] as f[x].
* **C88** The claim that other code stays as it is is refuted: eliminate_ifones also works on the user's own `if 1:` and `if 0:`, so that a function whose body is `if 0: yield` is left without a body. Definitions with parameters in block mode, and nested let_syntax blocks, are not covered by C88_block.
* **C89** Proved for code without kw(**d). Refuted for that: the code looks for Starred in keyword arguments, where it never is, so kw(**d) is accepted, and of kw(**a), kw(**b) only b is passed on. The empty tuple raises ValueError, also as data in a quoted tuple.
* **C90** Proved for code in which the container of a subscript is a name, a subscript or a call of such, and a starred argument is not a name or a subscript. Refuted: an argument that is a subscript, as in f(x[1/0]), is looked up at the call, used or not.
* **C91** Proved for the same code as C90. Refuted outside it: in (a if x == (3,) else b)[0] the name x is not forced all the way, so a tuple of promises is compared; f(*x) where x is a parameter raises TypeError, because a promise is not iterable. By reading, not modelled: x += 1 on a parameter, and names in default values, are not forced either.
* **C92** Proved for lines of which none after the first raises TypeError or StopIteration, and no body that mentions `_ignored`. Refuted: a TypeError in a later line is swallowed (from_iterable catches it and retries the exhausted generator), so results disappear silently; a StopIteration becomes RuntimeError; a line without a name assigns a variable `_ignored`.
* **C93** Proved for code in which, inside of an fn[...], no lambda has a parameter named `_`, `a if t else b` has underscores in a or in t but not in both, and no underscore in a value of a dictionary display stands before one in a key. Refuted outside: the parameters come in the order of the fields of the ast nodes, so fn[_ if _ else _] takes the test first and fn[{_: _, _: _}] the keys first; fn[(lambda _: _)(7)] captures the parameter of the lambda. Comprehensions, which have the same defect of order (element first), are not modelled.
* **C94** Proved where curried evaluation raises no TypeError and each manual curry() of a lambda is of the form curry(lambda ...: body) without a lambda in the body. Refuted outside: a third partial application of the same function, add4(1)(2)(3)(4), is a TypeError (the spec has this limit built in as an option); in the block the call of something that is not callable, such as 5(1), returns it and drops the arguments (fun.py 308 returns before it looks at the arguments), and so does curry(5, 1); arguments left over are an error only at the top level, in the body of a curried function they give a Values object; the lambdas inside curry(lambda ...) are not curried, since the state hascurry is not reset; a lambda passed to a manually curried function, curry(f)(lambda ...), is taken for a decorated lambda and not curried. C94_plain holds without these restrictions.
* **C95** Proved for programs that run without error in curried evaluation, with at least one argument in the second group, up to the order of the effects. The regrouped program must also not run into the limit on partial application (refuted: add4(1)(2)(3)(4)). Refuted without them: the order of effects may change, f(1)(2) is 1 and f(1, 2) a TypeError for f = lambda x: x, and f()() is not f().
* **C96** Generic functions (not methods): full, for definitions without *args and **kwargs whose defaults have the annotated types. Plain functions with annotations: proved for the first partial. Refuted for a partial of a partial: line 163 binds the collected arguments to func, whose signature lacks the parameters already bound, instead of thecallable, so valid arguments are rejected and invalid ones accepted. Refuted also for defaults not of the annotated type (x: int = None) and for an annotation on *args, which are held against the annotation although no argument was given.
* **C97** Proved for positional arguments and definitions with positional parameters only. Refuted with named arguments (the TypeError of _bind for one definition is not caught, so a later definition hides an earlier one that accepts) and with keyword-only parameters (a surplus positional argument is also held against the type of the keyword-only parameter). Methods are not covered.
* **C98** Proved with the names in the targets of attribute assignments read as variables, and with inner objects that do not mention the as-name of their own block; both restrictions are necessary (refuted without). Refuted also: names that other macros use are never looked up (and for a missing comma at line 305 curryf and currycall, which should be exempt, are); an as-name that is hidden by a parameter; an anonymous block in a loop shares one variable between its runs.
* **C99** Proved where compound statements do not mention names that they create or delete, inner functions do not mention names that the outer one declares nor delete names shadowed outside, and defaults and first iterables do not mention the parameters or targets; each condition is necessary (refuted without): a for loop's variable is not seen in its own body. Refuted also: parameters of a @dletseq function do not shadow. Classes, imports, match and except are not modelled.
* **C100** Proved: the registry, the sorting of lambda decorators, detection, and the insertion among decorators without arguments. Refuted: decorators that are out of order are not noticed (the check looks at the running maxima), so that a wrong place is suggested; decorators with arguments are ignored when inserting; the curryf that autocurry adds is not a known name, so lambdas with it are not sorted.
* **C101** Proved for all programs whose assignments are to variables of a let or do (as in C81) and that have no variable called `it`. Refuted: local[] in the brackets, if these are inside an item of a do[].
* **C102** Proved for bindings without templates in the forms with `in` and `where`; a body is replaced correctly if it is none of the four node types that have a `value`. Refuted: templates of let_syntax there, `let[x << 1 in x]`, the missing body of a decorator (TypeError instead of None), and replacing a body that is a constant, attribute, subscript or `:=` (the missing return in _set_subscript_slice makes the tree cyclic).
* **C103** Proved for all trees the macros make. Refuted: that only expanded forms are recognised; functions and methods of the user called `letter` or `dof` are, too.
* **C104** Proved for programs that satisfy the conditions `fines` in EvfSpec. Each is necessary, by a counterexample: local variables, comprehension variables or functions with the name of a parameter around, defaults and decorators that mention a parameter's name, parameters called as methods of env, and self. gensym is modelled as one name for each depth of nesting.
* **C105** Meaning: proved for programs without a lambda at a constant key that is not a string, where the macro makes the program raise TypeError (C105_key_refuted). Names: proved for `usual` programs; the conditions exclude decorated lambdas (C105_other_refuted, C105_argument_refuted), lambdas in default values (C105_default_refuted) and in the function part of a call with keyword arguments (C105_keyword_refuted). Macros inside the block, in particular autocurry, are not expanded.
* **C106** C106_captures_partial is for programs without a the[] in another the[] (the source recorded for the outer one is not the code as written: C106_nested_refuted) and without a the[] of a test block inside another test block (it is recorded for the outer block: C106_block_refuted). Literals are shown although documented as skipped (C106_trivial_refuted). test_signals[] is not modelled; the run-time part, testset, is in C74-C77 (Tset).
* **C108** Partial because it fails for: starred arguments of print in a dbg block (values lost), dbg[] inside another dbg[] or an argument of such a print (expanded source shown), nested dbg[p] blocks, nb blocks nested in one function (print function of the inner stays), nb[value], programs that use the name theprint. Each is refuted with a witness; on all other programs proved. The layout of the printed text (header, sep) and a custom dyn.dbgprint_expr are not modelled.
* **C109** Partial: requests that are the empty object, whose id is a list or an object, or for which the completer raises, get no reply (refuted with witnesses); pieces of a message must be of a size the decoder can cope with (see C01). One request is handled in one step: a REPL session does not close in the middle of one.
* **C110** The full statement is false: fg raises TypeError for every Thread, whatever its state (C110_thread_refuted). For an object that passes fg's test, proved.
* **C111** Partial because it fails when the same generator occurs twice in the expression (refuted: a + a), for pow(2, a, 5) (refuted), and, if an operand raises just after the other has ended, for comparisons with a plain iterable on the left, which Python mirrors. Elements are numbers, not iterables.
* **C112** Partial because the pieces must not cut prompts or characters, nor end with the text of a prompt in the output (all three refuted without this). Ctrl+C: see C135.
* **C113** Partial because of the conditions in fine and seq_ok, each of which is refuted without it: local variables with the name of a let variable that are mentioned before the end of the statement that assigns to them, default values and decorators that mention the own let's names, default values hidden by parameters, parameters with the name of the first variable of a dletseq.
* **C114** Partial only because the default does not act as in getattr when it has the attribute itself (refuted), and a value with the attribute is not read back after it was written (refuted).
* **C115** Partial because of ThreadLocalBox and Shim (refuted), which are excluded by all_supported, and because the recursion limit bounds the depth of what can be pickled, in particular the length of linked lists (refuted for every limit). Keys of dictionaries are strings, numbers, symbols and singletons. pickle itself is modelled, not verified.
* **C116** repr is proved in full; lispyrepr only for structures in which no list has cells as items, and refuted for the others. Atoms are abstract, with a representation of one word.
* **C117** Proved for all normal floats but the last 1023 below each power of two (the 43-bit resolution of a logarithm near 1024); there the result is right or twice the right value. Refuted: the float just below each power of two from 8 on, the largest float, subnormal floats. int and mpf arguments are not modelled.
* **C118** Proved for all stacks, heaps and handlers. Refuted: None as a condition, the message for an invalid cause, the cause of an instance signaled again, classes of warnings.
* **C119** C119_carries assumes that send and write take all they are given (refuted otherwise). Refuted also: output pending at stop(), BrokenPipeError, missing callbacks, stop without start.
* **C120** Proved for histories in which ports can be bound and sys is not changed by others; refuted without: a failing start is not undone, and stop restores what was there at import.
* **C121** Everything is proved for floats. For ints C121_int_partial requires that the sizes add up to at most the largest float; C121_int_refuted shows the OverflowError beyond 2^1024.
* **C122** C122_getitem_partial, C122_contains_partial and C122_get_partial are about names that are not attributes of the class; C122_class_names_refuted shows that they fail for those, in every state.
* **C123** C123_target_partial assumes that the system does not give an ident twice; C123_target_refuted shows that without this a call with the object of a thread that has ended raises the exception in another thread.
* **C124** Proved for statements without dotted imports, names bound in what is evaluated around an inner scope, := in comprehensions, and mapping or class patterns; each is refuted (the patterns raise TypeError: MatchCapturesCollector is called with the tree in its constructor, which takes none). For del, without handlers that have a name. Comprehension targets that are names or tuples of names. Done nodes and type parameters are not modelled.
* **C125** The isolation is proved for threads that use the blocks they made, in any order. What is found is proved for handlers that are properly nested in handlers, and restarts in restarts, each entered once at a time; for blocks left in any order, that nothing fails and nothing is left behind; a block left while a younger one is open pops the younger one's bindings, and `handlers` made in one thread and entered in another act on the first thread's stack (refuted). The listings are compared before they are sorted.
* **C126** Acceptance, rejection and isgeneric are proved in full. The listing is proved for functions without and bound methods with a first parameter named like self. Refuted: the listing of an unbound method lacks the definitions of the bases; with another name for self the listing shows definitions that are never tried; a generic function inside a function shares its definitions between all calls of that function, and a typed one raises TypeError the second time. The text that format_methods makes of a definition is not modelled.
* **C127** The list of sessions, the errors and the files are proved. The terminal is closed if setting up and cleaning up do not fail; refuted otherwise: the try that stops the proxy begins only at line 488, so that every failure between line 452 and it (print to a client that has gone, a Ctrl+C, no more files) leaves the terminal open, as does a failing message at line 494. What interact() does inside is not modelled.
* **C128** Proved when nobody else advances the iterator, and up to its first exception; refuted otherwise: items that others take are missing, and an iterator that could go on after an exception is not asked again.
* **C132** Proved in full for any order of requests as far as ownership, order and reading go, and for chunks read in turn; refuted: chunks requested before the earlier ones are read do not have constant length, so list(chunked(2, range(4))) has four chunks of one item.
* **C134** Proved as stated for structures without views in which no mutable container occurs twice; refuted: that a failed call changes nothing, and that the exception is always passed on unchanged (StopIteration in a tuple).
* **C135** Proved for all sequences of interrupts that avoid the named instants; each of them is refuted (text twice, text lost, typed line lost, client ended by a second Ctrl+C, replies on the control channel lost for good). The number of requests, the new prompt and the agreement with C112 are proved without condition.
* **C136** All programs of one thread. Two things that the documentation of let suggests are refuted for blocks that are entered again.
* **C137** All expressions of the fragment, in both directions. Two ways in which assignment expressions in the body do not behave as without the let are refuted.
* **C138** Equal to the specification for orders that are last in, first out; for all other orders, without empty blocks, to what one piece of code taking the same steps would see, and the stack is restored in the end. The full statement is refuted.
* **C139** All trees; the claim on lambdas is for trees without calls by the names dof and currycall, and is refuted for others. The walkers of mcpyrate are modelled after Python's own.
* **C140** All histories with a beginning that fit in the recursion limit; circular and longer ones refuted. The texts of tracebacks, types and messages are given.
* **C141** Times in whole units, not floating point. All programs in which a timer is not entered again within its own block; that case, and user functions named like the helpers, are refuted.
* **C142** Blocks of any kind around the signal that neither handle the condition nor have the restart. For a missing restart: proved if ControlError is not handled; refuted (no end) if the same handler gets it. One argument, one thread.
