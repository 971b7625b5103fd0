{"id": "C01", "title": "Message codec round trip for every payload and chunking", "statement": "If the byte stream fed to a MessageDecoder is exactly encodemsg(m), cut into non-empty chunks in any way, then decode() returns m, for every payload m.", "quantifier": "all payloads, all ways of cutting the stream into chunks", "why_tests_cant": "The number of (payload, chunking) pairs is unbounded and failures sit at particular alignments of header and chunk boundaries.", "anchors": ["unpythonic/net/msg.py: encodemsg, MessageDecoder, decodemsg (inner synchronize, read_header, read_body)", "unpythonic/net/util.py: ReceiveBuffer"]}
{"id": "C02", "title": "Message decoder delivers a sequence of messages in order and resynchronizes over junk", "statement": "Feeding the concatenation junk0+encode(m1)+junk1+encode(m2)+... (junk free of the sync byte) in any chunking, successive decode() calls return m1, m2, ... and finally None at end of input; no byte of one message leaks into another.", "quantifier": "all message sequences, all sync-free junk, all chunkings", "why_tests_cant": "Buffer carry-over between calls depends on the whole history of previous chunk boundaries.", "anchors": ["unpythonic/net/msg.py: MessageDecoder.decode, decodemsg", "unpythonic/net/util.py: ReceiveBuffer.set/append/getvalue"]}
{"id": "C03", "title": "Byte sources and helpers preserve the data stream", "statement": "bytessource(data, chunksize) yields chunks of at most chunksize bytes whose concatenation is data; recvall(n, sock) returns exactly the next n bytes whatever sizes recv() returns, or None if the peer closes first; netstringify(s) is len(s):s,.", "quantifier": "all data, chunk sizes, and fragmentations chosen by the socket", "why_tests_cant": "A test fixes one fragmentation; the peer may choose any.", "anchors": ["unpythonic/net/msg.py: bytessource", "unpythonic/net/util.py: recvall, netstringify"]}
{"id": "C04", "title": "A view is live and equal to the Python slice of the current sequence", "statement": "For a view v = view(lst)[s], at any later time v[i], len(v) and iteration agree with the Python slice lst[s] of the then-current contents of lst, whatever mutations (including length changes) lst has undergone.", "quantifier": "all sequences, slices, and mutation histories between reads", "why_tests_cant": "Staleness only shows after particular interleavings of reads and length-changing writes.", "anchors": ["unpythonic/collections.py: roview, view, roview._update_cache, roview._lookup"]}
{"id": "C05", "title": "Nested views (views of views) are live as well", "statement": "A view obtained by slicing a view reads as slicing the current value of the inner view, after any mutation history of the underlying sequence.", "quantifier": "all nested slices and mutation histories", "why_tests_cant": "Needs a particular combination of slice and length change after the first read.", "anchors": ["unpythonic/collections.py: roview._update_cache, roview.__getitem__"]}
{"id": "C06", "title": "Writes through a view change exactly the viewed positions", "statement": "v[i] = x, v[a:b:c] = seq and v.reverse() through a view modify the underlying list exactly at the positions the view selects, in view order, and leave every other position and the length unchanged.", "quantifier": "all sequences, slices, indices and values", "why_tests_cant": "Off-by-one errors in range arithmetic for one sign of step are easily missed by examples.", "anchors": ["unpythonic/collections.py: view.__setitem__, view.reverse, roview._lookup"]}
{"id": "C07", "title": "in_slice and index_in_slice agree with Python's own slicing", "statement": "For every slice with bounds inside the sequence, in_slice(i, s, n) holds exactly when index i is among range(n)[s], and index_in_slice(i, s, n) is the position of i in range(n)[s] (None when not in it).", "quantifier": "all lengths, indices, starts, stops, steps of both signs", "why_tests_cant": "The cross product of bounds, sign of step and remainder classes is infinite.", "anchors": ["unpythonic/collections.py: in_slice, index_in_slice, _make_negidx_converter, _canonize_slice"]}
{"id": "C08", "title": "Functional update is pointwise replacement and never mutates the original", "statement": "fupdate(seq, i, v) and fupdate(seq, slice, vs) return a sequence of the same type and length that has the replacement values at exactly the targeted positions and the original items elsewhere; the original is unchanged.", "quantifier": "all sequences, in-range indices, slices and replacement values", "why_tests_cant": "Universally quantified over indices, slices and contents; iteration order of replacement matters for negative steps.", "anchors": ["unpythonic/fup.py: fupdate, fup", "unpythonic/collections.py: ShadowedSequence"]}
{"id": "C09", "title": "Several functional updates apply left to right, later ones winning", "statement": "fupdate(seq, (i1, i2, ...), (v1, v2, ...)) equals applying the single updates one after another in order, so the last update of a position wins and untouched positions keep the original item.", "quantifier": "all update lists", "why_tests_cant": "Chains of shadowed sequences have unbounded depth.", "anchors": ["unpythonic/fup.py: fupdate", "unpythonic/collections.py: ShadowedSequence.__getitem__, _getone"]}
{"id": "C10", "title": "islice with slice syntax agrees with Python slicing", "statement": "tuple(islice(iterable)[a:b:c]) equals tuple(iterable)[a:b:c] for non-negative step, including negative a and b; islice(iterable)[k] is the item at index k.", "quantifier": "all finite iterables and slice bounds", "why_tests_cant": "Corner cases depend on the relation between the bounds and the unknown length.", "anchors": ["unpythonic/slicing.py: islice"]}
{"id": "C11", "title": "frozendict: construction merges left to right, lookups agree with dict, and later mutation of the sources has no effect", "statement": "frozendict(m1, m2, ..., **kw) maps each key to the value of the last source that has it, keeps insertion order of dict.update, equality and hash agree (equal frozendicts have equal hashes), and mutating a source after construction does not change the frozendict.", "quantifier": "all source mappings and later mutation histories", "why_tests_cant": "Snapshot independence is a statement about all later histories.", "anchors": ["unpythonic/collections.py: frozendict"]}
{"id": "C12", "title": "mogrify maps every leaf and preserves the container shape", "statement": "mogrify(f, x) applies f to every leaf exactly once and rebuilds every container with the same kind, nesting, order and size; mogrify(identity) is the identity and mogrify(f . g) = mogrify(f) . mogrify(g).", "quantifier": "all nested container values", "why_tests_cant": "Structures nest to arbitrary depth.", "anchors": ["unpythonic/collections.py: mogrify"]}
{"id": "C13", "title": "box and ThreadLocalBox: the value read is the last one written, per thread for the thread-local kind", "statement": "After any interleaving of set/clear/setdefault operations by any number of threads, a ThreadLocalBox read in thread t returns t's own last written value since its last clear, or the current default; a plain box returns the last value written by anyone.", "quantifier": "all operation histories and thread interleavings", "why_tests_cant": "Isolation is a property of all interleavings.", "anchors": ["unpythonic/collections.py: box, ThreadLocalBox, Some, Shim"]}
{"id": "C14", "title": "Linked lists: conversion, reverse, append and zip are the list operations", "statement": "tuple(llist(xs)) == xs, lreverse, lappend and lzip agree with reversal, concatenation and zip of the underlying Python sequences, and two linked structures compare equal exactly when they have the same shape and equal items; equal structures have equal hashes.", "quantifier": "all finite sequences and cons structures", "why_tests_cant": "Inductive over unbounded structures.", "anchors": ["unpythonic/llist.py: llist, ll, lreverse, lappend, member, lzip, cons.__eq__, cons.__hash__"]}
{"id": "C15", "title": "Cons structure iterators visit every leaf exactly once", "statement": "TailIterator/LinkedListIterator yield the cells/items of a proper list in order and raise TypeError on improper ones; BinaryTreeIterator yields the leaves of any cons tree (nil included), each exactly once, in left-to-right order; JackOfAllTradesIterator leaves out exactly the nils in cdr position.", "quantifier": "all cons trees", "why_tests_cant": "Trees of arbitrary shape and depth.", "anchors": ["unpythonic/llist.py: LinkedListIterator, LinkedListOrCellIterator, TailIterator, BinaryTreeIterator, ConsIterator"]}
{"id": "C16", "title": "Folds and scans obey their defining equations", "statement": "foldl/foldr combine from the left/right with op(elt, acc); the last item of scanl (scanr) is foldl (foldr); reducel/reducer use the first/last item as init; foldr over equal-length inputs is foldl over the reversed inputs; with several inputs the shortest (or longest, with fill value) determines the length.", "quantifier": "all operations, initial values, finite input tuples", "why_tests_cant": "Arbitrary operations and lengths.", "anchors": ["unpythonic/fold.py: scanl, scanr, foldl, foldr, reducel, reducer, rscanl, rfoldl"]}
{"id": "C17", "title": "unfold and iterate generate the orbit", "statement": "unfold1(proc, s)/unfold(proc, *s) yields exactly the values produced by iterating proc until it returns None; iterate1(f, x) yields x, f(x), f(f(x)), ... .", "quantifier": "all procs and states, unbounded prefixes", "why_tests_cant": "Infinite generators.", "anchors": ["unpythonic/fold.py: unfold1, unfold", "unpythonic/it.py: iterate1, iterate"]}
{"id": "C18", "title": "prod, running_minmax and minmax compute what they say", "statement": "prod(xs) is the product; running_minmax yields at position k the (min, max) of the first k+1 items; minmax is the (min, max) of all items, and (None, None) for an empty input.", "quantifier": "all finite inputs over a total order", "why_tests_cant": "All lengths and orders of the input.", "anchors": ["unpythonic/fold.py: prod, running_minmax, minmax"]}
{"id": "C19", "title": "take, drop and split_at partition an iterable", "statement": "take(n, it) is the first n items, drop(n, it) the rest, split_at(n, it) both; concatenated they give back the iterable; drop(None, it) exhausts; negative or non-int n is rejected.", "quantifier": "all n and iterables (finite or infinite for prefixes)", "why_tests_cant": "All split points.", "anchors": ["unpythonic/it.py: take, drop, split_at, unpack, butlast, butlastn, nth, first, last, lastn, pad, tail"]}
{"id": "C20", "title": "window and chunked cover the input as documented", "statement": "window(n, it) yields exactly the n-item contiguous sublists in order; chunked(n, it) yields consecutive chunks whose concatenation is the input, all of length n except possibly the last.", "quantifier": "all n >= the documented minimum and inputs", "why_tests_cant": "All lengths modulo n.", "anchors": ["unpythonic/it.py: window, chunked"]}
{"id": "C21", "title": "flatten family", "statement": "flatten(xs, pred) yields the leaves in order; flatten1 removes exactly one level; flatten_in processes inside retained sublists; items rejected by pred are kept as they are.", "quantifier": "all nested tuples/lists and predicates", "why_tests_cant": "Arbitrary nesting.", "anchors": ["unpythonic/it.py: flatten, flatten1, flatten_in, _flatten"]}
{"id": "C22", "title": "uniqify and uniq", "statement": "uniqify yields the first occurrence of every key, in order; uniq removes exactly the consecutive repetitions.", "quantifier": "all inputs and key functions", "why_tests_cant": "All inputs.", "anchors": ["unpythonic/it.py: uniqify, uniq"]}
{"id": "C23", "title": "inn decides membership in infinite monotone iterables", "statement": "For a monotone (increasing or decreasing) iterable, inn(x, it) returns in finite time True exactly when x occurs in it, provided the iterable eventually passes x.", "quantifier": "all monotone, possibly infinite iterables and all x", "why_tests_cant": "Infinite inputs.", "anchors": ["unpythonic/it.py: inn, iindex, find"]}
{"id": "C24", "title": "Reversing map and zip variants commute as documented", "statement": "mapr = rev . map, rmap = map over reversed inputs, zipr = rev . zip, rzip = zip over reversed inputs, and the longest variants pad before/after accordingly; rmap(f) over equal-length inputs equals mapr(f).", "quantifier": "all functions and finite input tuples", "why_tests_cant": "Equal/unequal lengths interact with reversal.", "anchors": ["unpythonic/it.py: rev, rmap, rzip, mapr, zipr, rmap_longest, rzip_longest, mapr_longest, zipr_longest, map, map_longest"]}
{"id": "C25", "title": "interleave, partition, subset, powerset, allsame", "statement": "partition splits by the predicate preserving order; interleave visits round-robin until the shortest runs out; subset decides inclusion; powerset yields each non-empty subset exactly once (2^n - 1 of them); allsame decides whether all items are equal.", "quantifier": "all finite inputs", "why_tests_cant": "All inputs.", "anchors": ["unpythonic/it.py: interleave, partition, subset, powerset, allsame"]}
{"id": "C26", "title": "Integer partitioning enumerates exactly the compositions", "statement": "partition_int_custom(n, components) yields exactly the ordered tuples of given components that sum to n, each once; partition_int(n, lower, upper) and partition_int_triangular are the instances for ranges and triangular numbers.", "quantifier": "all n and all component sets", "why_tests_cant": "Completeness and non-duplication for every n.", "anchors": ["unpythonic/numutil.py: partition_int, partition_int_triangular, partition_int_custom"]}
{"id": "C27", "title": "env: bindings behave like attributes and finalize freezes the set of names", "statement": "An env stores and returns the last value bound to each name; reserved names and non-identifiers are rejected by attribute and item assignment; after finalize() no name can be added or deleted but existing ones can be rebound; at the end of `with env(...)` all bindings are gone.", "quantifier": "all operation sequences", "why_tests_cant": "An invariant of all histories, including the bulk update operations.", "anchors": ["unpythonic/env.py: env"]}
{"id": "C28", "title": "assignonce binds each name at most once except through explicit rebinding", "statement": "In an assignonce env, setting an existing name raises AttributeError and leaves the value; set() rebinds existing names only; no other operation changes a value.", "quantifier": "all operation sequences", "why_tests_cant": "History property.", "anchors": ["unpythonic/assignonce.py: assignonce", "unpythonic/env.py: env"]}
{"id": "C29", "title": "Dynamic assignment is lexically nested and always restored", "statement": "Inside `with dyn.let(x=v)` reads of dyn.x give v unless shadowed by an inner let or rebound; after the block exits, normally or by an exception, every dynamic variable reads as before the block; assignment rebinds the innermost scope that has the name and fails for unbound names; update is all-or-nothing.", "quantifier": "all nestings of let/read/assign/raise programs", "why_tests_cant": "All program shapes and exception points.", "anchors": ["unpythonic/dynassign.py: dyn, _Env, _EnvBlock, make_dynvar"]}
{"id": "C30", "title": "Dynamic assignment is per thread", "statement": "A let block entered in one thread is not visible in any other thread; a new thread starts with a copy of the main thread's current scope stack.", "quantifier": "all interleavings of operations by all threads", "why_tests_cant": "Interleavings.", "anchors": ["unpythonic/dynassign.py: _Dyn._getstack, _getobservers, _global_dynvars, _mainthread_stack"]}
{"id": "C31", "title": "Memoized generators: every instance sees the same sequence and each item is computed once", "statement": "For gmemoize/imemoize/fimemoize, under any interleaving of next() calls on any number of instances (each used by one thread at a time), the k-th next of every instance gives the k-th outcome of the underlying generator (value or exception), and the underlying generator is advanced at most once per position.", "quantifier": "all numbers of instances and all interleavings", "why_tests_cant": "Schedules.", "anchors": ["unpythonic/gmemo.py: gmemoize, imemoize, fimemoize, _MemoizedGenerator"]}
{"id": "C32", "title": "Sharing one memoized generator instance between threads does not lose items", "statement": "If several threads call next() on the same memoized generator instance, the items handed out are consecutive positions, none skipped and none handed out twice.", "quantifier": "all schedules of the individual steps", "why_tests_cant": "Race conditions.", "anchors": ["unpythonic/gmemo.py: _MemoizedGenerator.__next__"]}
{"id": "C33", "title": "memoize computes each distinct argument binding at most once, also under threads and recursion", "statement": "Whatever the interleaving of calls from any number of threads, the memoized function runs at most once per distinct parameter binding; every call with that binding returns the same value or raises the same exception; calls that bind the same parameters positionally or by name share one entry.", "quantifier": "all call histories and schedules", "why_tests_cant": "Schedules.", "anchors": ["unpythonic/fun.py: memoize", "unpythonic/arity.py: resolve_bindings, tuplify_bindings"]}
{"id": "C34", "title": "forall is nested comprehension; MonadicList obeys the monad laws", "statement": "forall(choice(x=...), choice(y=lambda e: ...), insist(...), body) yields, in lexicographic order, the body value for every combination satisfying all insist/deny lines; MonadicList satisfies the functor and monad laws.", "quantifier": "all choice lists, conditions and bodies", "why_tests_cant": "All programs.", "anchors": ["unpythonic/amb.py: forall, choice, insist, deny, MonadicList"]}
{"id": "C35", "title": "throw reaches the nearest matching catch", "statement": "A throw(value, tag) is caught by the dynamically innermost enclosing catch whose tags accept that tag (a catch without tags catches everything except uncatchable throws, ...), which then returns value; intermediate code is abandoned; with no matching catch the exception propagates.", "quantifier": "all nestings of catch points and tags", "why_tests_cant": "All nestings.", "anchors": ["unpythonic/ec.py: throw, catch, Escape, call_ec"]}
{"id": "C36", "title": "call_ec: the escape continuation always reaches its own call_ec", "statement": "Invoking the ec of a call_ec within its dynamic extent returns from exactly that call_ec with the given value, whatever catch points are in between; after the extent it raises RuntimeError.", "quantifier": "all nestings and all intervening catches", "why_tests_cant": "All nestings.", "anchors": ["unpythonic/ec.py: call_ec, throw, catch"]}
{"id": "C37", "title": "Trampolining gives the result of direct tail calls in constant stack", "statement": "Running a trampolined function whose tail calls are jump()s gives the same result as making those calls directly, for any number of jumps and any mixture of trampolined and plain functions as jump targets; the Python call depth does not grow with the number of jumps.", "quantifier": "all mutually tail-recursive programs and all inputs", "why_tests_cant": "Unbounded iteration counts.", "anchors": ["unpythonic/tco.py: trampolined, jump, _jump"]}
{"id": "C38", "title": "gtco: a generator tail-chain yields the concatenation", "statement": "gtco(g) yields the items of g, then of the generator it tail-jumps to by `return`, and so on, and returns the last non-generator value.", "quantifier": "all chains of generators", "why_tests_cant": "Unbounded chains.", "anchors": ["unpythonic/gtco.py: gtco, gtrampolined"]}
{"id": "C39", "title": "fix terminates with bottom on exact cycles and otherwise does not change the function", "statement": "Calling a @fix function whose recursive calls revisit a call in progress returns bottom for the revisiting call; if no call revisits, the result equals that of the undecorated function; on a finite argument space every call terminates.", "quantifier": "all functions and all finite call graphs", "why_tests_cant": "Call graphs of arbitrary shape.", "anchors": ["unpythonic/fix.py: fix, fixtco, _infinitely_recursing_call bookkeeping"]}
{"id": "C40", "title": "fix bookkeeping is clean after every outermost call", "statement": "After an outermost call to a @fix function returns or raises, the record of calls in progress is as before, so a later call cannot be misdetected as a cycle.", "quantifier": "all exits, normal or exceptional", "why_tests_cant": "All exception points.", "anchors": ["unpythonic/fix.py: fix, fixtco"]}
{"id": "C41", "title": "Signals are offered to matching handlers from the innermost outward until one takes over", "statement": "signal(c) calls, in order of dynamic nesting from innermost, every handler whose condition type matches c, until a handler transfers control by invoking a restart; if all decline, signal returns; handlers run without unwinding the signaller.", "quantifier": "all handler stacks and handler behaviours", "why_tests_cant": "All nestings and behaviours.", "anchors": ["unpythonic/conditions.py: signal, handlers, _find_handlers"]}
{"id": "C42", "title": "invoke_restart transfers control to exactly the chosen restart's establishing block", "statement": "Invoking the restart named n runs the most recently established visible restart with that name and makes the result the value of exactly the `with restarts` block that established it; all blocks in between are exited.", "quantifier": "all nestings of restarts blocks, including recursive re-entries", "why_tests_cant": "All nestings.", "anchors": ["unpythonic/conditions.py: restarts, invoke_restart, find_restart, InvokeRestart"]}
{"id": "C43", "title": "error, cerror and warn protocols", "statement": "error(c) never returns normally: if no handler takes over it raises ControlError; cerror offers a proceed restart under which it returns; warn prints a warning unless a handler muffles it, and returns.", "quantifier": "all handler configurations", "why_tests_cant": "All handler behaviours.", "anchors": ["unpythonic/conditions.py: error, cerror, warn, proceed, muffle"]}
{"id": "C44", "title": "Handler and restart stacks are balanced", "statement": "After any with handlers / with restarts block exits, normally, by a restart or by an exception, the visible handlers and restarts are exactly those visible before it was entered.", "quantifier": "all programs and exits", "why_tests_cant": "All exits.", "anchors": ["unpythonic/conditions.py: _Stacked, handlers, restarts, available_handlers, available_restarts"]}
{"id": "C45", "title": "A handler that declines has no effect on the search, whatever it did inside", "statement": "When a handler returns normally the search continues with the next outer handler even if the handler itself established and left handler blocks of its own while running.", "quantifier": "all handler bodies", "why_tests_cant": "Needs a handler that uses the condition system itself.", "anchors": ["unpythonic/conditions.py: signal, _find_handlers, handlers"]}
{"id": "C46", "title": "Currying: any grouping of the arguments gives the same result as one call", "statement": "For a function with fixed parameters, supplying its arguments to curry(f) in any number of steps, positionally or by name, gives the same result as calling f with all of them at once; f is called exactly once, when the last parameter becomes bound.", "quantifier": "all signatures, argument lists and groupings", "why_tests_cant": "All groupings.", "anchors": ["unpythonic/fun.py: curry, _decide_curry_action, partial", "unpythonic/arity.py: _bind"]}
{"id": "C47", "title": "Curry passthrough: surplus arguments go to the result", "statement": "If more positional arguments than parameters are given, the function is called with as many as it accepts and the rest are passed on the right to its (callable) result, or, if the result is not callable, they are returned after it inside an enclosing curry context and raise TypeError at the top level.", "quantifier": "all signatures including keyword-only and ** parameters, and all surplus arguments", "why_tests_cant": "All signatures.", "anchors": ["unpythonic/fun.py: curry, _decide_curry_action", "unpythonic/arity.py: _bind"]}
{"id": "C48", "title": "Composition and pipes agree", "statement": "composel(f1..fn)(args) = composer(fn..f1)(args) = pipe(Values(args), f1..fn) = piped(args)|f1|...|fn|exitpipe = the same with lazy_piped; composition is associative; piped objects are persistent (piping never changes an existing pipe).", "quantifier": "all function lists and argument packs", "why_tests_cant": "All lists of functions.", "anchors": ["unpythonic/fun.py: composer, composel, composer1, composel1", "unpythonic/seq.py: pipe1, pipe, piped1, piped, lazy_piped1, lazy_piped"]}
{"id": "C49", "title": "Values equality and unpacking", "statement": "Two Values are equal iff their positional parts and named parts are; iteration yields the positional part and refuses when named values are present; subscripting by int/slice reads the positional part and by str the named part.", "quantifier": "all Values", "why_tests_cant": "All contents.", "anchors": ["unpythonic/funutil.py: Values, valuify"]}
{"id": "C50", "title": "Argument rearrangers flip, rotate, tokth, to, apply", "statement": "flip reverses, rotate(k) cyclically shifts by k positions (rotate(j) after rotate(k) is rotate(j+k)), tokth(k, f) applies f to the k-th argument (negative k from the end) and passes the others through; tolast handles any non-empty argument list; apply concatenates its leading arguments with the last list.", "quantifier": "all argument lists and k in range", "why_tests_cant": "All lengths and k.", "anchors": ["unpythonic/fun.py: flip, rotate, tokth, to1st, to2nd, tolast, to, apply"]}
{"id": "C51", "title": "notf, andf, orf are short-circuiting logic", "statement": "andf(fs)(x) evaluates the functions in order up to the first falsy one and gives False, or the last value; orf gives the first truthy value or False; notf negates truthiness.", "quantifier": "all predicate lists", "why_tests_cant": "All lists.", "anchors": ["unpythonic/fun.py: notf, andf, orf"]}
{"id": "C52", "title": "Multiple dispatch picks the first match, most recently registered first", "statement": "A call to a generic function runs the most recently registered multimethod whose signature accepts the arguments and whose type annotations match; for methods, own-class multimethods come before those of bases in MRO order; if none matches TypeError is raised and nothing runs.", "quantifier": "all registration histories and calls", "why_tests_cant": "All histories.", "anchors": ["unpythonic/dispatch.py: generic, augment, _setup, _register_to, _resolve_multimethod, _list_multimethods"]}
{"id": "C53", "title": "isoftype is compositional", "statement": "isoftype decides the intended set-theoretic meaning of Any, Union, Optional, Tuple[...], List/Set/Dict/Sequence/Mapping etc.: Union is disjunction, containers require all elements to match, empty parametrized collections are rejected.", "quantifier": "all values and nested type specifications", "why_tests_cant": "Nested specifications.", "anchors": ["unpythonic/typecheck.py: isoftype"]}
{"id": "C54", "title": "let, letrec, do: sequential binding semantics", "statement": "letrec binds in order, each initializer sees exactly the earlier bindings; duplicate names are rejected; the body sees all bindings and no others can be added afterwards; do runs items in order and returns the last, do0 the first.", "quantifier": "all binding lists and bodies", "why_tests_cant": "All programs.", "anchors": ["unpythonic/let.py: _let", "unpythonic/lispylet.py: _let", "unpythonic/seq.py: do, do0, begin, begin0"]}
{"id": "C55", "title": "Functional loops equal the corresponding folds", "statement": "looped_over(it, acc)(body) with body returning loop(g(x, acc)) is the left fold of g; breakably_looped_over supports continue (skip keeping acc) and break (return the given value); looped terminates with the first value that is not a loop(...) request.", "quantifier": "all iterables and bodies", "why_tests_cant": "Unbounded iterations.", "anchors": ["unpythonic/fploop.py: looped, looped_over, breakably_looped, breakably_looped_over"]}
{"id": "C56", "title": "tryf behaves like try/except/else/finally", "statement": "tryf(body, (spec, handler)..., elsef, finallyf): the first handler whose spec matches the raised exception runs and its value is returned; an exception no handler matches propagates; finallyf always runs exactly once.", "quantifier": "all bodies, handler lists and exceptions", "why_tests_cant": "All exception types.", "anchors": ["unpythonic/excutil.py: tryf"]}
{"id": "C57", "title": "reraise maps exceptions by first match and otherwise leaves them alone", "statement": "Under reraise/reraise_in, an exception matching a mapping key is replaced by the mapped exception of the first matching key, chained to the original; others propagate unchanged; normal results pass through.", "quantifier": "all mappings and exceptions", "why_tests_cant": "All mappings.", "anchors": ["unpythonic/excutil.py: reraise_in, reraise, _reraise_handler"]}
{"id": "C58", "title": "sym interning: one live object per name under any schedule", "statement": "At any time there is at most one live sym object per name, whatever the interleaving of constructions in several threads and of garbage collections; sym(n) never fails.", "quantifier": "all schedules of construction steps and reference drops", "why_tests_cant": "Schedules and GC timing.", "anchors": ["unpythonic/symbol.py: sym.__new__, gsym.__new__"]}
{"id": "C59", "title": "Singleton: at most one live instance per class", "statement": "Calling a Singleton class while an instance is alive raises TypeError; unpickling yields the existing instance; at most one instance is alive at any time under any interleaving.", "quantifier": "all schedules of constructions, unpicklings and reference drops", "why_tests_cant": "Schedules.", "anchors": ["unpythonic/singleton.py: Singleton.__new__, ThereCanBeOnlyOne.__call__"]}
{"id": "C60", "title": "Lazy promises are evaluated at most once", "statement": "However often a Lazy is forced, its thunk runs at most once and all forces give the same value or raise the same exception; force on containers forces every contained promise.", "quantifier": "all force histories", "why_tests_cant": "Histories, including re-entrant and concurrent forcing.", "anchors": ["unpythonic/lazyutil.py: Lazy.force, force1, force, maybe_force_args"]}
{"id": "C61", "title": "primes yields exactly the primes in increasing order", "statement": "primes() yields every prime number exactly once, in increasing order, for both optimize modes.", "quantifier": "all positions in the infinite sequence", "why_tests_cant": "Infinite sequence.", "anchors": ["unpythonic/mathseq.py: primes, _primes, _fastprimes"]}
{"id": "C62", "title": "Cauchy product and diagonal reduction", "statement": "The k-th item of cauchyprod(a, b) is the sum of a[i]*b[k-i] over the index pairs present in the inputs; for finite inputs with require='any' there are len(a)+len(b)-1 items, with require='all' min(len(a), len(b)); it is commutative and agrees with polynomial multiplication.", "quantifier": "all finite and infinite inputs and all k", "why_tests_cant": "All lengths.", "anchors": ["unpythonic/mathseq.py: cauchyprod, diagonal_reduce"]}
{"id": "C63", "title": "s() describes the sequence it is given", "statement": "s(a0, a1, ...) continues the arithmetic sequence, s(a0, a1, a2, ...) the arithmetic or geometric one consistent with the terms, the generated terms begin with the given ones, and s(..., ..., last) ends exactly at last; inconsistent specifications are rejected.", "quantifier": "all exact (integer/rational) specifications", "why_tests_cant": "All numbers.", "anchors": ["unpythonic/mathseq.py: s"]}
{"id": "C64", "title": "Termwise arithmetic and simple sequences", "statement": "Infix arithmetic on mathified iterables is termwise with shortest-input termination and scalar broadcast; fibonacci and triangular yield the n-th Fibonacci and triangular number.", "quantifier": "all inputs and positions", "why_tests_cant": "Infinite sequences.", "anchors": ["unpythonic/mathseq.py: _make_termwise_stream_binop, _make_termwise_stream_unop, fibonacci, triangular"]}
{"id": "C65", "title": "seconds_to_human is exact positional notation", "statement": "seconds_to_human(s) = (d, h, m, r) with s = 86400 d + 3600 h + 60 m + r, 0 <= h < 24, 0 <= m < 60, 0 <= r < 60.", "quantifier": "all integers s", "why_tests_cant": "All numbers.", "anchors": ["unpythonic/timeutil.py: seconds_to_human, format_human_time"]}
{"id": "C66", "title": "Popper, CountingIterator and slurp", "statement": "Popper yields items from the left of the container's current contents until it is empty, whatever the body does to the container; CountingIterator.count is the number of items yielded so far; slurp returns the queue's items in order and empties it.", "quantifier": "all histories of interleaved container mutations", "why_tests_cant": "Histories.", "anchors": ["unpythonic/misc.py: Popper, CountingIterator, slurp"]}
{"id": "C67", "title": "arities describes exactly the acceptable numbers of positional arguments", "statement": "For a function without keyword-only required parameters, arity_includes(f, n) holds iff f can be called with n positional arguments; for generic functions the range covers every multimethod.", "quantifier": "all signatures and n", "why_tests_cant": "All signatures.", "anchors": ["unpythonic/arity.py: arities, arity_includes, required_kwargs, optional_kwargs"]}
{"id": "C68", "title": "within and fixpoint stop at the first close pair", "statement": "within(tol, it) yields the items up to and including the first pair of consecutive items that differ by at most tol; fixpoint(f, x0, tol) returns the second item of the first such pair of iterates, hence with tol=0 a fixed point of f, and returns whenever such a pair exists.", "quantifier": "all functions, starting points, tolerances and inputs", "why_tests_cant": "The claim ranges over all functions and convergence behaviours; tests try a few convergent iterations.", "anchors": ["unpythonic/numutil.py:fixpoint", "unpythonic/it.py:within"]}
{"id": "C69", "title": "Stream source bounds its chunks and preserves the data", "statement": "streamsource(stream, chunksize) yields non-empty chunks of at most chunksize bytes whose concatenation is the rest of the stream.", "quantifier": "all stream contents, chunk sizes and patterns of short reads", "why_tests_cant": "A test fixes one chunk size and one availability pattern.", "anchors": ["unpythonic/net/util.py: streamsource"]}
{"id": "C70", "title": "Shim redirects attribute access to the object currently in its box, with a fallback", "statement": "Reading an attribute through Shim(box, fallback) gives the attribute of the object now in the box if it has one, and otherwise that of the fallback; writing an attribute writes to the object in the box and changes no other object.", "quantifier": "all box contents, fallbacks, attribute names and histories of replacing the contents", "why_tests_cant": "The fallback may be any object, including one that is false in a boolean context.", "anchors": ["unpythonic/collections.py: Shim"]}
{"id": "C71", "title": "Views of dyn are live", "statement": "A mapping obtained from dyn.asdict() (or items/keys/values) shows at every later time exactly the dynamic variables its thread has at that time; a view that is no longer used is released.", "quantifier": "all histories of blocks, assignments and views in all threads, all variables", "why_tests_cant": "All histories; leaks show only in the long run.", "anchors": ["unpythonic/dynassign.py: _DynLiveView, _EnvBlock, _getobservers"]}
{"id": "C72", "title": "resignal converts library conditions into application conditions", "statement": "Inside `with resignal({Lib: App, ...})`, a condition that is an instance of a mapped type is signalled again as the application type of the first entry that matches, by the same protocol (signal, error, cerror, warn), with the original as its cause; outer handlers act on it exactly as if the application condition had been signalled; other conditions are not affected.", "quantifier": "all mappings, conditions, protocols and surrounding handlers and restarts", "why_tests_cant": "Mappings may relate types in any way, including a target that is a subtype of its source.", "anchors": ["unpythonic/conditions.py: resignal, resignal_in, _resignal_handler"]}
{"id": "C73", "title": "ETAEstimator extrapolates the mean of the last task durations", "statement": "After ticks at given times, ETAEstimator(total, keep_last).estimate is None before the first tick, 0 once nothing remains, and otherwise (total - completed) times the mean duration of the last keep_last tasks (all of them by default, so that it equals the time from the start to the last tick scaled by remaining/completed).", "quantifier": "all totals, window sizes and tick histories", "why_tests_cant": "Histories of any length.", "anchors": ["unpythonic/timeutil.py: ETAEstimator.tick, estimate"]}
{"id": "C74", "title": "Every test of a session is counted once, in its category", "statement": "In a session, each test[], test_signals[], test_raises[], fail[], error[] and warn[] is counted exactly once: as passed, failed (false value, or the expected condition or exception did not come), errored (unexpected condition or exception) or warned (not counted in the number of tests run). A test that does not pass prints one line and does not stop the tests after it. The session ends normally whatever the tests do, for any nesting of testsets, tests and catch_signals.", "quantifier": "all test suites (trees of testsets, tests, catch_signals, raises, signals by each protocol, terminations), postprocs that return or raise, and class hierarchies of conditions", "why_tests_cant": "The framework is what tests are judged by; suites are trees of any depth.", "anchors": ["unpythonic/test/fixtures.py: session, testset, catch_signals, _update", "unpythonic/syntax/testingtools.py: _observe, unpythonic_assert, unpythonic_assert_signals, unpythonic_assert_raises"]}
{"id": "C75", "title": "The summary of a testset agrees with what happened in it", "statement": "The numbers printed at the end of a testset are the changes of the counters during it and agree with the failure, error and warning lines printed inside; failures plus errors never exceed the tests run; testsets nest properly in the report; no exception leaves a testset, and after it the nesting level and the postproc in force are those before it.", "quantifier": "all suites, and for a single testset all bodies that do not themselves tamper with the framework's state", "why_tests_cant": "Any nesting, any way of ending the body.", "anchors": ["unpythonic/test/fixtures.py: testset, summarize"]}
{"id": "C76", "title": "terminate ends the session", "statement": "After terminate(), called directly or as the postproc of a testset, no more tests of the session are run.", "quantifier": "all suites with a call to terminate", "why_tests_cant": "Any nesting of testsets around the call.", "anchors": ["unpythonic/test/fixtures.py: terminate, TestSessionExit, session, testset"]}
{"id": "C77", "title": "An unhandled condition in a testset counts as one error", "statement": "A condition signalled in the code of a testset that no handler takes counts as one error, once; if its signaller offers to proceed (cerror, warn), the code goes on after it.", "quantifier": "all protocols, condition types and depths of nesting", "why_tests_cant": "Any depth of nesting.", "anchors": ["unpythonic/test/fixtures.py: testset (print_and_proceed)"]}
{"id": "C78", "title": "autoreturn returns the value in tail position", "statement": "A program in a `with autoreturn` block does what it would do if every function returned the value of the expression, function or class that the executed path of its body ends in: an expression statement, a def, a class, or recursively the last item of the branch taken of an if, of a with body, of the else (or body) of a try, of the except clause taken; loops and other statements give None. Explicit returns, exceptions, break and continue, the scope of names, and everything outside function bodies are as before.", "quantifier": "all programs of the fragment (nested functions, closures, lambdas, classes, if, while, try/except/else/finally, with, return, raise, break, continue), builtin functions with any effects, starting states, numbers of steps", "why_tests_cant": "Programs are trees of any shape; tests cover a few.", "anchors": ["unpythonic/syntax/tailtools.py: _autoreturn (AutoreturnTransformer, TailStatementTransformer)"]}
{"id": "C79", "title": "with tco changes nothing but the use of the stack", "statement": "A program in a `with tco` block, where calls in tail position (return f(x), the branches of a conditional expression, the last item of and/or, the body of a lambda) become jumps on a trampoline, has the same result, effects and variables as without. This holds if no tail call is inside a try body, a with body or anything with a finally in the same function, no `and` in tail position has a false item other than False before its last, only functions are called, and no function has a name that is taken for an escape continuation; each of these exceptions is witnessed by a program on which the block does change the result. `with autoreturn, tco` composes.", "quantifier": "all programs of the fragment (closures, lambdas, classes, if, while, try, with, and/or), builtin functions with any effects, starting states, numbers of steps", "why_tests_cant": "Programs are trees of any shape; tests cover a few.", "anchors": ["unpythonic/syntax/tailtools.py: _tco, _tco_transform_def, _tco_transform_return, _tco_transform_lambda, _transform_retexpr", "unpythonic/syntax/util.py: isec", "unpythonic/tco.py: trampolined, jump"]}
{"id": "C80", "title": "Tail calls under with tco take no stack", "statement": "If the functions of a program in a `with tco` block call other functions only in tail position, then the program runs within one nested call at a time: limiting the stack to one call gives the same run, result and effects as no limit, however many calls are made. If the functions make other calls as well, only these count: with any limit on the number of calls in progress the program does what it would in a Python in which a tail call takes the place of the call that ends with it. (For the programs that C79 is proved for.)", "quantifier": "all such programs, builtin functions, starting states, numbers of steps", "why_tests_cant": "The number of calls is not bounded; a test runs a large but fixed number.", "anchors": ["unpythonic/syntax/tailtools.py: _tco, _transform_retexpr", "unpythonic/tco.py: trampolined, jump"]}
{"id": "C81", "title": "let, letseq, letrec and do mean lexical scoping", "statement": "If the macros let, letseq, letrec and do expand an expression, however nested, then evaluating the result has the value, exception and effects that the source has by lexical scoping: a let's values do not see its variables, a letseq's see those before, a letrec's see all; an item of a do sees the variables declared by the items before that are not deleted; `x := v` assigns to the innermost let or do variable of that name; lambda parameters shadow; closures share the variables they see.", "quantifier": "all expressions over let/letseq/letrec/do/local/delete, lambdas, calls, conditionals, assignments; builtin functions with any effects; global variables; numbers of steps", "why_tests_cant": "Nesting is unbounded, and a name can be captured wrongly at any depth.", "anchors": ["unpythonic/syntax/letdo.py: _let_expr_impl, _letlike_transform, _transform_envassignment, _transform_name, _do", "unpythonic/syntax/scopeanalyzer.py: scoped_transform", "unpythonic/lispylet.py: _let", "unpythonic/seq.py: do", "unpythonic/env.py: env"]}
{"id": "C82", "title": "Which let and do expressions are accepted", "statement": "Expanding an expression with let, letseq, letrec and do always ends, and fails only with a SyntaxError, exactly if: a local[] or delete[] is not an item of a do, a name is declared twice in a do, a binding is not of the form `name := value`, or (against the documentation) a let or do inside an item of a do binds a name that is a variable of the outer do, or the body of a let in extra brackets inside a do uses local[] or delete[].", "quantifier": "all expressions of the fragment", "why_tests_cant": "It is about all ways of nesting, and about the end of the expansion.", "anchors": ["unpythonic/syntax/letdo.py: _let_expr_impl, _do, local, delete", "unpythonic/syntax/letdoutil.py: canonize_bindings"]}
{"id": "C83", "title": "What call_cc[] and continuations mean", "statement": "A `with continuations` block runs as documented: `return v` hands v to the current continuation, `return f(...)` calls f with it, cc names it and can be overridden; `targets = call_cc[f(...)]` calls f with the rest of the function as its continuation, which can be stored, called any number of times, from anywhere, alone or followed by other continuations; it takes the targets as parameters, is a new scope whose outer variables are shared, and when it ends goes on with what the function had to go on with. The results, the exceptions and the output are those of a machine with continuations as values.", "quantifier": "all blocks of the fragment (functions and lambdas, nested to any depth, with conditionals, loops, exceptions, and, or, call_cc[] at any top level, Values, starred targets, cc given, get_cc), all numbers of steps", "why_tests_cant": "Continuations can be stored and resumed in unboundedly many orders; tests show a few topologies.", "anchors": ["unpythonic/syntax/tailtools.py: _continuations, chain_conts, get_cc, _transform_retexpr", "unpythonic/tco.py: trampolined, jump", "unpythonic/fun.py: identity"]}
{"id": "C84", "title": "Where call_cc[] and return may stand", "statement": "A `with continuations` block at module level is accepted exactly if every call_cc[] is a statement of the body of a def or of the block itself, the block does not end in one, and no return stands in the block itself (before its first call_cc[] also not in an if); otherwise it is a SyntaxError.", "quantifier": "all blocks of the fragment", "why_tests_cant": "It is about all ways of nesting.", "anchors": ["unpythonic/syntax/tailtools.py: _continuations (split_at_callcc, StrayCallccChecker)"]}
{"id": "C85", "title": "Programs on which continuations are exact", "statement": "If after a call_cc[] no function has another call_cc[] or a tail call, no try body has a tail call, no return value is `a and f()`, and call_cc[None] is not used, then the block does exactly what the documentation says, unless identity (the default continuation) is called in tail position or by call_cc[].", "quantifier": "all blocks of the fragment, all numbers of steps", "why_tests_cant": "It quantifies over all programs.", "anchors": ["unpythonic/syntax/tailtools.py: _continuations, chain_conts"]}
{"id": "C86", "title": "Syntactic bindings replace names, once and in the documented order", "statement": "let_syntax[x << w][e] (and abbrev) is e with w in the place of every x, and, if w is a name, identifiers x renamed; with several bindings the templates are applied first, then the bare names, each in the order they are written; two bindings of one name are a SyntaxError.", "quantifier": "all expressions, all lists of bindings", "why_tests_cant": "It is about all syntax trees.", "anchors": ["unpythonic/syntax/letsyntax.py: _let_syntax_expr, _substitute_barename, _substitute_barenames, _analyze_lhs"]}
{"id": "C87", "title": "Templates take their arguments as they are written", "statement": "A template f[a1, ..., an] << w makes each use f[e1, ..., en] into w with every ai replaced by ei, also where uses are nested in each other's arguments; another number of arguments is a SyntaxError.", "quantifier": "all templates, all uses, all arguments", "why_tests_cant": "It is about all syntax trees; tests use arguments whose names do not clash.", "anchors": ["unpythonic/syntax/letsyntax.py: _substitute_templates"]}
{"id": "C88", "title": "with let_syntax", "statement": "In a `with let_syntax` block a definition takes effect from the next statement on; a block's statements come where its name stands as a statement, an expression where its name stands; the definitions themselves are gone, and all other code stays as it is.", "quantifier": "all blocks with definitions without parameters that do not refer to each other", "why_tests_cant": "It is about all blocks of statements, nested to any depth.", "anchors": ["unpythonic/syntax/letsyntax.py: _let_syntax_block", "unpythonic/syntax/util.py: eliminate_ifones, transform_statements"]}
{"id": "C89", "title": "prefix turns tuples into calls", "statement": "In `with prefix` (or prefix[...]) a tuple (f, a1, ..., kw(k=v), ...) is the call f(a1, ..., k=v) with the items evaluated from left to right, positional ones first, and the rightmost of several definitions of a keyword; (q, ...) is a tuple, q and u nest, tuples inside a quoted one are data until unquoted; u outside a quote, kw in a quoted tuple, positional or ** arguments in kw(...) are rejected; subscripts, let bindings, do and calls are not rewritten, and code without tuples stays as it is.", "quantifier": "all expressions, all nestings of quotes, all meanings of calls, names and other nodes", "why_tests_cant": "It is about all programs with tuples nested to any depth.", "anchors": ["unpythonic/syntax/prefix.py: prefix, _prefix, PrefixTransformer"]}
{"id": "C90", "title": "lazify: arguments are evaluated only when used", "statement": "In `with lazify`, an expression gives the value, raises the exception or runs forever exactly as it does when each argument of a call (and each let binding, and each item of a tuple literal in such a place) stands for its expression in the scope of the caller, evaluated where the parameter is used, at most once, and not at all if it is not; arguments that are themselves names or subscripts hand on what they refer to, and a builtin gets its arguments evaluated.", "quantifier": "all programs of functions and expressions, all operators, builtins and data, terminating or not", "why_tests_cant": "It is an equivalence of two semantics over all programs; a test sees one program at a time, and cannot see that nothing is evaluated in all the others.", "anchors": ["unpythonic/syntax/lazify.py: lazify, lazyrec, transform_arg", "unpythonic/lazyutil.py: Lazy, force, force1, maybe_force_args"]}
{"id": "C91", "title": "lazify keeps the results of programs that work without it", "statement": "Wherever a program of pure functions gives a value in Python, the same program in `with lazify` gives the same value.", "quantifier": "all programs of functions and expressions, all operators and builtins", "why_tests_cant": "It is about all programs and all depths of calls.", "anchors": ["unpythonic/syntax/lazify.py: lazify", "unpythonic/lazyutil.py: Lazy, force, force1, maybe_force_args"]}
{"id": "C92", "title": "The forall macro is nested loops", "statement": "forall[...] evaluates its lines like nested loops: a line `x := choices` is a loop whose variable is visible in the lines after it and shadows earlier ones of the same name, a line without a name filters (insist, deny) or repeats, the last line gives a result for each round; with the effects and exceptions of the loops, in their order, and after insist(False) the lines below are not evaluated.", "quantifier": "all lines, choices, effects and exceptions", "why_tests_cant": "It ranges over all lists of lines, what their bodies do, and the histories of effects in between.", "anchors": ["unpythonic/syntax/forall.py: forall, _forall", "unpythonic/amb.py: monadify, MonadicList"]}
{"id": "C93", "title": "fn: each underscore is a parameter", "statement": "fn[body] is a function that takes as many arguments as body has underscores (outside of a nested fn[...]); a call evaluates body with the arguments in place of the underscores from left to right, in the scope of the definition, also inside of lambdas in the body; nested fn[...] have their own underscores, and `_` outside of fn[...] is a normal variable.", "quantifier": "all programs of expressions, all depths of nesting, operators, effects and calls", "why_tests_cant": "It is an equivalence of the expanded program with the source over all programs.", "anchors": ["unpythonic/syntax/lambdatools.py: fn, _fn, quicklambda"]}
{"id": "C94", "title": "autocurry: the block runs with all functions and calls curried", "statement": "In `with autocurry`, a function waits until it has all its arguments, and arguments left over are passed on to its result, whichever functions and calls are involved; functions defined in the block stay curried for the code after it. A program that runs in plain Python without a TypeError computes the same, with the same effects in the same order, when part of it is put in the block.", "quantifier": "all programs of functions, calls and effects before, in and after the block, all depths of nesting and recursion", "why_tests_cant": "It is an equivalence of the expanded program with the source over all programs.", "anchors": ["unpythonic/syntax/autocurry.py: autocurry", "unpythonic/syntax/util.py: has_curry, is_decorated_lambda", "unpythonic/fun.py: curry, _currycall"]}
{"id": "C95", "title": "autocurry: the grouping of arguments does not matter", "statement": "In `with autocurry`, f(a...)(b...) may be written f(a..., b...) and the other way around, anywhere in the block, without changing what the program computes.", "quantifier": "all programs, all regroupings of all of their calls", "why_tests_cant": "It is an equivalence of programs over all programs and all ways of grouping.", "anchors": ["unpythonic/syntax/autocurry.py: autocurry", "unpythonic/fun.py: curry, _currycall"]}
{"id": "C96", "title": "partial: type errors are reported at once, and only type errors", "statement": "partial(f, ...) of a function with type annotations or of a @generic function raises TypeError exactly when no type-correct call of f can begin with the arguments given so far; when it succeeds, calling the result is calling f with all the arguments.", "quantifier": "all functions and histories of @generic definitions, all arguments by position and by name, any number of steps", "why_tests_cant": "It says that an argument list is rejected iff no completion of it, out of infinitely many, is a valid call.", "anchors": ["unpythonic/fun.py: partial", "unpythonic/dispatch.py: _resolve_multimethod, _get_argument_type_mismatches", "unpythonic/arity.py: _resolve_bindings"]}
{"id": "C97", "title": "curry of a @generic function: when it calls, passes on, waits or fails", "statement": "A curried generic function is called as soon as some definition accepts the arguments given so far; otherwise surplus arguments are passed on if some definition accepts the arguments without them; otherwise it waits if a type-correct call can begin with them; otherwise it raises TypeError.", "quantifier": "all histories of @generic definitions, all lists of arguments", "why_tests_cant": "Which of the four happens depends on all the definitions and on whether any completion of the arguments exists.", "anchors": ["unpythonic/fun.py: curry, _decide_curry_action", "unpythonic/arity.py: _bind", "unpythonic/dispatch.py: _list_multimethods"]}
{"id": "C98", "title": "autoref: what a bare name means", "statement": "Inside with autoref[e] blocks, a bare name that is read means the attribute of that name of the object of the innermost enclosing block that has one at that moment, and otherwise the variable of that name; the as-names of the enclosing blocks always mean the variables. Everything else in the block means what it does outside of it, and the functions defined in the block keep looking names up in its objects after it.", "quantifier": "all programs of functions, loops, assignments, attribute assignments and autoref blocks nested in any way; all runs", "why_tests_cant": "The expansion of a block is edited again by each block around it, to any depth, and which object has the attribute changes as the program runs.", "anchors": ["unpythonic/syntax/autoref.py: autoref, _autoref, _autoref_resolve"]}
{"id": "C99", "title": "let: which identifiers refer to its variables", "statement": "In the body of a let, and in a function decorated with @dlet or @dletrec, the identifiers with the name of a variable of the let refer to that variable, except where they are shadowed: by the parameters of a function or lambda and the targets of a comprehension, inside it; by a name declared global or nonlocal, in that function and those inside it; by a local variable, from the statement after the one that creates it up to the one that deletes it, and in the functions defined there. Assignment with := to a variable that is not shadowed updates the let's. Nothing else in the code changes.", "quantifier": "all functions of assignments, deletions, declarations, compound statements, nested functions, lambdas and comprehensions, nested in any way; all sets of variables", "why_tests_cant": "Each use is decided by all the scopes around it and by the statements before it, nested to any depth.", "anchors": ["unpythonic/syntax/scopeanalyzer.py: scoped_transform, get_lexical_variables, get_names_in_store_context, get_names_in_del_context, collect_globals, collect_nonlocals", "unpythonic/syntax/letdo.py: _letlike_transform, _dlet, _dletseq_impl", "doc/macros.md: 366-372"]}
{"id": "C100", "title": "The order of decorators", "statement": "Decorators registered with register_decorator are known to the macros with their priorities, whatever order the modules are imported in. The decorators of a lambda that has only known ones are put in the order of their priorities, the smallest outermost, everywhere in a block, and nothing else changes. A decorator that a macro adds to a function whose known decorators are in order is put in its place among them; if they are not in order no place is suggested. A lambda or function that already has a decorator is recognised.", "quantifier": "all sequences of registrations; all program texts of nested calls, lambdas and decorator lists", "why_tests_cant": "Chains of decorators have any length, the registry is extensible, and decorated lambdas nest inside each other.", "anchors": ["unpythonic/regutil.py: register_decorator", "unpythonic/syntax/util.py: sort_lambda_decorators, suggest_decorator_index, has_deco, is_decorated_lambda, destructure_decorated_lambda", "unpythonic/syntax/nameutil.py: isx, getname"]}
{"id": "C101", "title": "cond, aif and multilambda", "statement": "In the fully expanded program cond[test1, then1, ..., otherwise] evaluates its tests in order up to the first that is true and then only the branch of this one; aif[test, then, otherwise] evaluates the test once and then one branch, in which `it` is the value of the test, lexically scoped, so that the test of an inner aif sees the `it` of the outer; brackets around a part of a cond or aif, around the body of a let, and in `with multilambda` around the body of a lambda, are multiple expressions in a do. An `it` outside the branches of an aif and a cond without an otherwise part are syntax errors, and nothing else is.", "quantifier": "all programs of nested expressions with these forms, let, letseq, letrec, do, lambdas and calls; all builtin functions and global variables; all numbers of nested calls", "why_tests_cant": "The forms nest in each other in any depth and order, and their branches can be closures that run later.", "anchors": ["unpythonic/syntax/ifexprs.py: cond, _cond, aif, _aif, it", "unpythonic/syntax/letdo.py: _implicit_do", "unpythonic/syntax/lambdatools.py: multilambda, _multilambda"]}
{"id": "C102", "title": "All written forms of let and do are read alike, and their views replace just one part", "statement": "However a let is written (lispy, `in`, `where`; bindings as assignments, pairs in brackets or parentheses, one or several; subscript or call) its bindings and its body are read as they are meant, and nothing else is taken for a let; the same holds for a do, and for the assignments `x << v` and `x := v`. A view of an unexpanded let, do or assignment shows these parts, and assigning one of them yields a form of the same kind, with the other parts as they were.", "quantifier": "all trees; all bindings and bodies; all forms", "why_tests_cant": "The forms combine freely, their parts are arbitrary trees, and trees of other meaning must not be mistaken for them.", "anchors": ["unpythonic/syntax/letdoutil.py: canonize_bindings, isenvassign, islet, isdo, UnexpandedEnvAssignView, UnexpandedLetView, UnexpandedDoView, _get_subscript_slice, _set_subscript_slice"]}
{"id": "C103", "title": "Views of expanded let and do forms", "statement": "A view of an expanded let, decorator let or do, before or after autocurry, shows the bindings, the body or items and the name of the environment, and assigning one of these parts yields an expanded form with that part new, the name of the environment as it was and the other parts unchanged; an assignment that changes the number of bindings or items is rejected.", "quantifier": "all bindings, bodies and items; with and without autocurry; let, letrec and decorators", "why_tests_cant": "The parts are arbitrary trees and the forms are nested differently by autocurry, at every level.", "anchors": ["unpythonic/syntax/letdoutil.py: islet, isdo, ExpandedLetView, ExpandedDoView", "unpythonic/syntax/letdo.py: _let_expr_impl, _let_decorator_impl, _do", "unpythonic/syntax/autocurry.py: autocurry", "unpythonic/syntax/nameutil.py: isx, getname"]}
{"id": "C104", "title": "with envify changes nothing but the meaning of << on parameters", "statement": "A program in a `with envify` block has the same effects, results and exceptions as the program as written, in which `n << e` rebinds the parameter n of a function or lambda around and has the value of e; closures made by the same call share the parameter and each call has its own.", "quantifier": "all programs of nested functions and lambdas with default values, decorators, loops, comprehensions, nonlocal and assignment expressions; all primitive operations and initial states; all depths of calls", "why_tests_cant": "The replacement of names by attributes must be right for every nesting of scopes and every interleaving of calls of closures.", "anchors": ["unpythonic/syntax/lambdatools.py: envify, _envify", "unpythonic/env.py: env", "unpythonic/syntax/letdo.py: _do"]}
{"id": "C105", "title": "with namedlambda names lambdas and changes nothing else", "statement": "A program in a `with namedlambda` block that does not look at function names has the same effects, result and exceptions as without; each lambda there gets the name of the variable, let binding, keyword argument or string key it is bound to, and any other lambda gets a name that tells its place in the file.", "quantifier": "all programs with nested functions, lambdas with default values, calls with keyword arguments, assignments, assignment expressions, let forms and dict displays; all primitive operations and initial states; all depths of calls", "why_tests_cant": "The three passes of the macro skip some parts of the program and visit others twice; that no name is lost and no value changed must hold for every nesting of these forms.", "anchors": ["unpythonic/syntax/lambdatools.py: namedlambda, _namedlambda", "unpythonic/misc.py: namelambda", "unpythonic/syntax/util.py: is_decorated_lambda, has_deco, destructure_decorated_lambda"]}
{"id": "C106", "title": "test[] records what the[] marks, and marks change nothing else", "statement": "A program with test[], `with test`, test_raises[], `with test_raises`, fail[], error[] and warn[] reports exactly the tests that are false or raise (or do not raise as declared), each with its message and with the values and sources of the the[] expressions that belong to it, in the order evaluated; if there is none and the test is a comparison, with its left side. Removing the the[] marks changes no result, effect, exception or verdict.", "quantifier": "all programs with nested functions, lambdas, chained comparisons, conditionals, nested test expressions and test blocks; all primitive operations and initial states; all depths of calls", "why_tests_cant": "Marks may be anywhere in a test, also in functions that are called later or many times, and tests nest; which test a value is recorded for must be right for every nesting.", "anchors": ["unpythonic/syntax/testingtools.py: test, the, _test_expr, _test_block, _transform_important_subexpr, _inject_value_recorder, _unconditional_error_expr, _test_expr_signals_or_raises, _test_block_signals_or_raises, unpythonic_assert, unpythonic_assert_raises"]}
{"id": "C107", "title": "Each function decorated with dlet has its own persistent environment", "statement": "The environment of a function decorated with dlet or dletrec is made once, from its bindings, when the function is defined; from then on it changes only by what the function's own body does to it, over all calls, and never loses or gains names; a caller cannot replace it. blet and bletrec define such a function and call it once without arguments.", "quantifier": "all programs that define such functions, call them with any arguments, also recursively and from one another, and use their environments by any operation; both modules (let, lispylet); all depths of calls", "why_tests_cant": "The state must survive every interleaving of calls of any number of functions.", "anchors": ["unpythonic/let.py: _dlet, _blet", "unpythonic/lispylet.py: _dlet, _blet"]}
{"id": "C108", "title": "nb and dbg only add output, as documented", "statement": "In a `with nb` block each expression statement at its top level sets _ to its value, which is printed unless it is None; dbg[e] outputs e's source and value and has that value; in a `with dbg` block each print outputs the source and value of each of its arguments, or hands them to the block's print function. Removing dbg from a program changes its output only: print then prints the same values, and dbg[] nothing.", "quantifier": "all programs of the model's language (functions, conditionals, nested calls with keyword arguments, starred arguments, any nesting of the blocks), all builtin operations, all runs", "why_tests_cant": "The blocks can contain any code, and a test of a debug printer looks at a few printed lines.", "anchors": ["unpythonic/syntax/nb.py: nb, _nb, _print_and_passthrough", "unpythonic/syntax/dbg.py: dbg, _dbg_block, _dbg_expr, dbgprint_block, dbgprint_expr"]}
{"id": "C109", "title": "The REPL server's control channel does what is asked, for the session it is paired with", "statement": "A remote Ctrl+C interrupts exactly the thread of the REPL session most recently paired with that control session, if that REPL session is still active, and no other thread. Each request gets one reply, with status ok exactly if it succeeded; a failed request changes nothing; control sessions do not influence each other; session ids are not reused. The client's calls return the reply to that very request if its status is ok and None otherwise, however the network cuts the messages into pieces.", "quantifier": "all histories of REPL sessions opening, starting and closing, control sessions connecting and JSON requests arriving in them in any order; all outcomes of async_raise and of the completer; all ways to cut messages into pieces", "why_tests_cant": "Sessions come and go concurrently and requests are arbitrary JSON from the network; the history space is unbounded.", "anchors": ["unpythonic/net/server.py: ControlSession.handle, ConsoleSession.handle, _active_sessions", "unpythonic/net/client.py: ControlClient", "unpythonic/net/common.py: ApplevelProtocolMixin"]}
{"id": "C110", "title": "fg gives the result of a background job once", "statement": "fg(thread), for a thread returned by bg, returns the thread while the job runs; when it has ended, the first fg returns its value or raises its exception, and removes it.", "quantifier": "all histories of jobs started and ended and of fg calls", "why_tests_cant": "Jobs end at any moment relative to the fg calls.", "anchors": ["unpythonic/net/server.py: bg, fg"]}
{"id": "C111", "title": "Infix arithmetic on sequences is termwise", "statement": "An infix expression with imathified iterables (and numbers and other iterables) is the sequence whose term at each index is the expression applied to the terms of the operands at that index, with operands in the order written; it ends with the shortest operand and raises, at an index, what the operation there raises. Building it consumes nothing.", "quantifier": "all expressions with the arithmetic, bitwise and comparison operators, round and three-argument pow; all finite and infinite iterables, consumable or not; all operations on numbers, including those that raise; any number of terms", "why_tests_cant": "Iterables are infinite and expressions arbitrary; operand order, sharing of consumable operands and exceptions interact.", "anchors": ["unpythonic/mathseq.py: imathify, gmathify, _make_termwise_stream_unop, _make_termwise_stream_binop, spow, sround"]}
{"id": "C112", "title": "The REPL client shows the dialogue", "statement": "The client pairs with the session announced in the first line, shows all output of the server in order, asks for input exactly at the server's prompts, sends each line typed, and ends when the server closes the connection or, after asking it to quit, on Ctrl+D. However the stream is cut into pieces, nothing is shown that was not sent, and nothing is lost or repeated up to where the client stops.", "quantifier": "all dialogues; all ways in which the network cuts the stream into pieces; all prompts; all inputs", "why_tests_cant": "The network may cut the stream anywhere; tests see only a few ways.", "anchors": ["unpythonic/net/client.py: connect"]}
{"id": "C113", "title": "Let over def: dlet, dletrec, blet, bletrec, dletseq, bletseq", "statement": "A function under @dlet or @dletrec runs as if its let variables lived in an environment around it that is made once, when the function is defined: reading a variable, assigning to it with := and hiding it by a parameter work as by lexical scoping, at any depth of nested functions, lambdas and lets, in any order of calls; values of a let are evaluated outside it, those of a letrec inside it. @blet and @bletrec call the function at once and bind the result to its name. @dletseq and @bletseq are nested functions with one such decorator each. After expansion no macro is left, and code without the macros is not changed.", "quantifier": "all programs made of functions, lambdas, ifs, decorators, default values and nested lets; all builtin functions, global variables and states of the world", "why_tests_cant": "Scoping bugs show only for particular combinations of nesting, shadowing and order of calls; there are infinitely many programs.", "anchors": ["unpythonic/syntax/letdo.py: dlet, dletrec, blet, bletrec, dletseq, bletseq, _let_decorator_impl, _dletseq_impl, _letlike_transform", "unpythonic/syntax/scopeanalyzer.py: scoped_transform", "unpythonic/lispylet.py: dlet, blet, dletrec, bletrec"]}
{"id": "C114", "title": "Onions of wrapper objects: getattrrec and setattrrec", "statement": "getattrrec(o, n) follows the attribute n from layer to layer and returns the first thing found that has no attribute n; setattrrec(o, n, v) changes exactly that attribute of the innermost layer and nothing else. What was written is read back, writing back what was read changes nothing, and of two writes the second one counts. A default is used as in getattr.", "quantifier": "all object graphs, also cyclic ones, all attribute names, values and depths of wrapping", "why_tests_cant": "Depth of wrapping is unbounded, and that nothing else changes is a statement about every other object and attribute.", "anchors": ["unpythonic/misc.py: getattrrec, setattrrec"]}
{"id": "C115", "title": "Pickling", "statement": "A value made of linked lists, boxes, Some, frozendicts, environments, symbols, gensyms, singletons, lists and dictionaries, in any graph with sharing and cycles, can be pickled and unpickled, in the same or in another process, and gives a copy: the same classes and contents, the same sharing, environments finalized or not as before. Symbols, gensyms, singletons and the empty frozendict are the ones of the process that unpickles (made if it has none), also when unpickled many times; all other objects are new; nothing else in the process changes. All containers are pickleable if their contents are.", "quantifier": "all object graphs (any shape, size, cycles), all processes that pickle and unpickle, with any interned objects alive in them", "why_tests_cant": "Object graphs are unbounded; that sharing is kept and nothing else changes is a statement about every pair of objects.", "anchors": ["unpythonic/collections.py: frozendict.__new__, frozendict.__getnewargs__, box, Some, ThreadLocalBox, Shim.__getattr__", "unpythonic/env.py: env.__new__, env.__getattr__", "unpythonic/symbol.py: sym.__new__, sym.__getnewargs__, gsym.__new__, gsym.__getnewargs__", "unpythonic/singleton.py: Singleton.__new__", "unpythonic/llist.py: cons, Nil"]}
{"id": "C116", "title": "Printing linked lists", "statement": "repr of any structure of cons cells is a Python expression for that structure (suitable for eval if the elements' representations are), so different structures print differently; lists print as ll(...) however long they are without deep recursion, and too deep nesting is a RecursionError, never a wrong text. lispyrepr is the structure in Lisp's dot notation.", "quantifier": "all structures of cons cells, any nesting and length; all atoms whose representation is one word that reads back; all recursion limits", "why_tests_cant": "That a text reads back as what was printed must hold for every tree of cells; tests print a few.", "anchors": ["unpythonic/llist.py: cons.__repr__, cons.lispyrepr, Nil.__repr__, LinkedListIterator"]}
{"id": "C117", "title": "Unit in the last place", "statement": "ulp(x) is the value of the least significant bit of the float x, that is the distance from |x| to the next larger float.", "quantifier": "all binary64 floats, any log2 that returns a float next to the logarithm", "why_tests_cant": "There are 2^64 floats; where rounding of the logarithm changes the result is a statement about every one of them.", "anchors": ["unpythonic/numutil.py: ulp"]}
{"id": "C118", "title": "Tracebacks, causes and protocols of conditions", "statement": "A condition that is signaled has, when its handlers see it, the cause given to signal, the protocol used, and a traceback that is the call stack of the caller from the root down (and the frames of error, cerror or warn). No other exception object changes. An unhandled error is a ControlError raised from the condition; a warning is attributed to the caller's line. Invalid conditions are ControlErrors.", "quantifier": "all call stacks, exception objects, conditions given as instances or classes, causes, handlers", "why_tests_cant": "Every depth of the call stack, every heap of exceptions and every handler.", "anchors": ["unpythonic/excutil.py: equip_with_traceback", "unpythonic/conditions.py: signal, _prepare_signal_instance, error, cerror, warn"]}
{"id": "C119", "title": "The proxy between terminal and socket", "statement": "PTYSocketProxy carries the bytes written in the terminal to the client and the bytes sent by the client to the terminal, in order, without loss or repetition; when the connection is lost its callback is called once; stop() ends it and closes the terminal.", "quantifier": "all histories of writes, reads of any sizes, disconnections, errors, starts and stops", "why_tests_cant": "The sizes of reads and writes and the interleaving with disconnections are chosen by the operating system.", "anchors": ["unpythonic/net/ptyproxy.py: PTYSocketProxy"]}
{"id": "C120", "title": "Life of the REPL server", "statement": "start() and stop() of the REPL server are all or nothing: either the server listens on both ports, the standard streams are redirected and it is registered for exit, or everything is as before. A second start is refused, a second stop does nothing. The demo server ends when halt() was asked for (and not canceled) and no session is open.", "quantifier": "all histories of starts (also failing ones), stops, halts and sessions", "why_tests_cant": "Histories are unbounded, and failures may happen at each step of start.", "anchors": ["unpythonic/net/server.py: start, stop, halt, main, ConsoleSession.handle"]}
{"id": "C121", "title": "Almost equal floats", "statement": "almosteq(a, b, tol) of floats never raises, is symmetric, true for equal numbers, false for nan, and true of an infinity only with itself. For numbers that are not 0 and not closer than the smallest normal float it says whether |a - b| / min(|a| + |b|, max) is less than tol, up to a relative error of 2^-50; else, whether |a - b| is less than tol times the smallest normal float. Numbers of different signs are not almost equal unless tiny. With tolerance 0 only equal numbers are almost equal. Ints are compared in the same way (refuted for ints further apart than 2^1024: OverflowError). It is not transitive.", "quantifier": "all binary64 numbers a, b and tolerances tol in [2^-1000, 1]", "why_tests_cant": "There are 2^128 pairs, and five operations are rounded, with overflow and underflow.", "anchors": ["unpythonic/numutil.py: almosteq"]}
{"id": "C122", "title": "dyn is a mapping", "statement": "Iteration, len(), keys(), items() and == of dyn show each dynamic variable once, with the value of the innermost scope that has it; `name in dyn`, dyn[name], dyn.get(name) and getattr agree with them. (Refuted for names that are attributes of the class, such as items, and for the exception of a missing name, which is not KeyError.)", "quantifier": "all stacks of scopes, all names and values", "why_tests_cant": "All nestings and shadowings of scopes and all names.", "anchors": ["unpythonic/dynassign.py: _Dyn.__getattr__, __contains__, __getitem__, get, __iter__, items, keys, values, __len__, __eq__, asdict, _DynLiveView"]}
{"id": "C123", "title": "async_raise hits the thread it is given", "statement": "An exception sent by async_raise is raised in the thread it was sent to and in no other, at most once per call that returned normally; a call that raises has no effect on any thread; a thread that is not active is a ValueError, what is not a thread a TypeError, and an interpreter without the mechanism NotImplementedError. (Refuted: idents are used again, so the object of a thread that has ended can name another thread; normal return does not mean that the exception is raised; an unstarted thread can be a TypeError while another is being started.)", "quantifier": "all interleavings of any number of threads (being made, started, running, ending) and of the steps of any number of calls", "why_tests_cant": "The races between a call and the start and end of threads, and the reuse of thread idents, occur rarely and cannot be forced.", "anchors": ["unpythonic/excutil.py: async_raise"]}
{"id": "C124", "title": "The scope analyzer's collectors find exactly the names a statement binds, deletes and declares", "statement": "get_names_in_store_context gives exactly the names that a statement binds in its scope by Python's rules (assignment, :=, for, with, import, def, class, except, match), get_names_in_del_context those it deletes, collect_globals and collect_nonlocals those it declares; get_lexical_variables gives for a function its name, parameters and local variables, each once, and the declared names, for a lambda the parameters, for a comprehension the targets. (Refuted: dotted imports, handlers without a name, := in comprehensions and default values, mapping and class patterns which raise TypeError, handler names that are deleted, names in both lists, targets that are lists or have attributes.)", "quantifier": "all syntax trees", "why_tests_cant": "Statements nest without bound, and each kind of node can occur in each place.", "anchors": ["unpythonic/syntax/scopeanalyzer.py: get_names_in_store_context, get_names_in_del_context, collect_globals, collect_nonlocals, extract_args, get_lexical_variables, isnewscope"]}
{"id": "C125", "title": "The handlers and restarts that a thread can find are those of the blocks it is in", "statement": "In every schedule of many threads, what a thread gets from find_restart, available_restarts, available_handlers and the search for handlers is what it would get alone; and it is what its own open `with restarts` and `with handlers` blocks define, the innermost first: a restart is that of the innermost block that has the name, each name and each type is listed once with the function that would be found, and the handlers of a condition are tried from the innermost block outwards, in the order of the block. Handlers and restarts need not be nested in each other; and in whatever order blocks are left, leaving does not fail, and a thread that has left all of its blocks finds nothing. (Refuted: blocks left out of order, as by a suspended generator, and handlers made in one thread and entered in another.)", "quantifier": "all histories of all threads that make, enter and leave blocks and look up handlers and restarts", "why_tests_cant": "The interleavings of threads are not bounded, and neither is the nesting of blocks.", "anchors": ["unpythonic/conditions.py: _stacks, _ensure_stacks, _Stacked, Restarts, handlers, _find_handlers, find_restart, available_restarts, available_handlers"]}
{"id": "C126", "title": "Which definitions a generic function takes, and that methods() shows what calls try", "statement": "@generic, @typed and @augment accept a definition exactly if all its parameters are annotated (a first parameter named like self excepted), no @typed function has that name, and @augment is given a generic function; otherwise TypeError is raised and no function's definitions change. isgeneric tells generic from typed functions. list_methods (and methods, format_methods) gives the definitions in the order in which a call tries them: the call runs the first one listed that accepts the arguments, and raises TypeError if none does. (Refuted: unbound methods, first parameters of other names, and generic functions defined inside of a function that is called twice.)", "quantifier": "all histories of decorators, all class hierarchies and all calls", "why_tests_cant": "Histories and hierarchies are not bounded.", "anchors": ["unpythonic/dispatch.py: generic, typed, augment, isgeneric, methods, format_methods, list_methods, _list_multimethods, _setup, _register_to", "unpythonic/arity.py: getfunc"]}
{"id": "C127", "title": "A REPL session cleans up after itself, whatever goes wrong in it", "statement": "When a REPL session of the server ends, in whatever way and at whatever point something fails (an exception in a call, or an asynchronous one such as a remote Ctrl+C), the session is no longer listed as active, its files and its terminal are closed, the thread that forwards its traffic has ended, and no error reaches the server. (Refuted for the terminal: any failure between its opening and the prompt leaves it open.)", "quantifier": "all combinations of failures, before or after the effect of each step", "why_tests_cant": "Failures can happen at each step, also several of them, and asynchronous exceptions at any moment.", "anchors": ["unpythonic/net/server.py: ConsoleSession.handle", "unpythonic/net/ptyproxy.py: PTYSocketProxy.__init__, start, stop"]}
{"id": "C128", "title": "imemoize and fimemoize make iterables restartable", "statement": "Every generator made by a memoized iterable (imemoize) or by a memoized factory of iterables (fimemoize) gives the items of the iterable in order, up to the end or the first exception, and StopIteration from then on, however its use is interleaved with that of other such generators; provided that nobody else advances the iterator. Generators for equal arguments give the same in any case. The factory is called at most once for equal arguments, with the first of them, and only at the first next(); the iterator is not advanced for an item that has been given before, nor after an exception.", "quantifier": "all iterables and factories, all histories of calls and next()", "why_tests_cant": "Arbitrary interleavings of arbitrarily many instances and argument values.", "anchors": ["unpythonic/gmemo.py: gmemoize, imemoize, fimemoize, _MemoizedGenerator"]}
{"id": "C129", "title": "with quicklambda expands every fn[...] first, and nothing else", "statement": "Under `with quicklambda`, every fn[...] in the block, under any of the names the macro is imported as, in the arguments of other macros and in other fn[...]s, is replaced before other macros are expanded by a lambda whose parameters stand for its underscores in order; names of parameters are new and pairwise different; all other code, including uses of other macros, stays as written.", "quantifier": "every syntax tree, every set of macro bindings (with several names of fn, and other macros), every state of the generator of names", "why_tests_cant": "Blocks, nestings and import names are unbounded; tests try a few expressions with one name.", "anchors": ["unpythonic/syntax/lambdatools.py:quicklambda", "unpythonic/syntax/lambdatools.py:fn", "unpythonic/syntax/lambdatools.py:_fn"]}
{"id": "C130", "title": "The iterator tools are lazy, and pass exceptions of their input on", "statement": "Each iterator tool (take, drop, unpack, split_at, butlastn, nth, last, lastn, scons, pad, flatten family, flatmap, uniqify, uniq, window, within, interleave, find, iindex, inn, subset, allsame) reads the next item of its input only when what it has given so far is all that follows from the items read; it reads nothing at the call except the items it is documented to need then, nothing more once its answer is known or it has stopped, and nothing after the input has ended; what it has given is a fixed function of the items read, and an exception of the input reaches the user at once, after everything that follows from the items read before it.", "quantifier": "every input (finite, infinite, failing at any point), every point at which the user stops asking, every parameter", "why_tests_cant": "Infinite inputs, all points of failure and all points of abandonment cannot be enumerated; tests compare results of complete runs.", "anchors": ["unpythonic/it.py:take", "unpythonic/it.py:drop", "unpythonic/it.py:unpack", "unpythonic/it.py:split_at", "unpythonic/it.py:butlastn", "unpythonic/it.py:nth", "unpythonic/it.py:last", "unpythonic/it.py:lastn", "unpythonic/it.py:scons", "unpythonic/it.py:pad", "unpythonic/it.py:flatten", "unpythonic/it.py:flatten1", "unpythonic/it.py:flatten_in", "unpythonic/it.py:flatmap", "unpythonic/it.py:uniqify", "unpythonic/it.py:uniq", "unpythonic/it.py:window", "unpythonic/it.py:within", "unpythonic/it.py:interleave", "unpythonic/it.py:find", "unpythonic/it.py:iindex", "unpythonic/it.py:inn", "unpythonic/it.py:subset", "unpythonic/it.py:allsame"]}
{"id": "C131", "title": "partition loses and repeats nothing, in whatever order its outputs are read", "statement": "However the two outputs of partition are read (alternately, one far ahead of the other, again after an exception): each output gives exactly the items of its kind among those read, in the order of the input; the input is read only when an output has given all the items of its kind read so far, and only as far as the next item of that kind; an output ends or fails only together with the input or the predicate; when both have ended, they have together given each item of the input exactly once.", "quantifier": "every input (finite, infinite, failing, going on after a failure), every predicate (also one that raises), every sequence of requests to the two outputs", "why_tests_cant": "The interleavings of requests to the two outputs are unbounded, as are the inputs.", "anchors": ["unpythonic/it.py:partition"]}
{"id": "C132", "title": "chunked: each item in one chunk, one item read per request, chunks of the size in turn", "statement": "In whatever order the chunks of chunked(n, iterable) are requested and read, each item read belongs to exactly one chunk, which gives its items in the order of the input, at least one and at most n; a request for a chunk reads one item, a request for an item at most one, and none once the chunk or the generator has ended or failed; a size below 2 is a ValueError. If each chunk is read to its end before the next is requested, chunk i gives the items from i*n on, n of them or all that are left.", "quantifier": "every input, every size, every sequence of requests for chunks and for items of any of the chunks", "why_tests_cant": "The interleavings of requests to the generator and to all the chunks are unbounded, as are the inputs.", "anchors": ["unpythonic/it.py:chunked", "unpythonic/it.py:scons"]}
{"id": "C133", "title": "The folds, scans, maps and zips over several iterables read no more than they need", "statement": "map, map_longest, scanl, scanr, foldl, foldr, mapr, rmap, rscanl, rfoldl (and zipr, rzip and the longest variants, and with one iterable scanl1, scanr1, reducel, reducer, rscanl1, rreducel, running_minmax, minmax): which iterable is asked next, and what has been given before that, is determined by what has happened so far. The lazy ones give each result as soon as its row is complete, before anything else is read; the iterables are asked in turn; zip stops at the first one that ends, zip_longest when all have ended, with the fill value for those that ended before; the right and reversing ones read everything first, row by row or iterable after iterable. An exception from an iterable is passed on at once; an iterable that has ended is never asked again, and after a failure none is.", "quantifier": "every number of iterables, finite, infinite or failing at any point, every function (also one that raises), every fill value, any number of requests by the user", "why_tests_cant": "The lengths of the iterables, the points of failure and the functions are unbounded, and laziness is about what has not been read at every moment of a run.", "anchors": ["unpythonic/fold.py:scanl", "unpythonic/fold.py:scanr", "unpythonic/fold.py:foldl", "unpythonic/fold.py:foldr", "unpythonic/fold.py:scanl1", "unpythonic/fold.py:scanr1", "unpythonic/fold.py:reducel", "unpythonic/fold.py:reducer", "unpythonic/fold.py:rscanl", "unpythonic/fold.py:rscanl1", "unpythonic/fold.py:rfoldl", "unpythonic/fold.py:rreducel", "unpythonic/fold.py:running_minmax", "unpythonic/fold.py:minmax", "unpythonic/it.py:map", "unpythonic/it.py:map_longest", "unpythonic/it.py:rmap", "unpythonic/it.py:mapr"]}
{"id": "C134", "title": "mogrify calls the function in order, and a call that raises leaves no container half done", "statement": "mogrify(func, container) calls func once for each atom, from left to right, also inside Values, linked lists, Some, boxes, dictionaries and sets. If func raises, no further call is made; the mutable containers that were finished by then have their new contents, and every other container, inside or outside the structure, holds exactly what it held: none is left empty or half filled. The exception reaches the caller; only StopIteration raised inside a tuple arrives as RuntimeError. A failed mogrify is therefore not undone: that it changes nothing is refuted.", "quantifier": "every structure of tuples, lists, dicts, sets, frozendicts, frozensets, linked lists, Some, Values and boxes in which no mutable container occurs twice, every function on atoms and every atom at which it raises first", "why_tests_cant": "The nesting of containers and the place of the failure are unbounded; a test sees a few structures and a few failures.", "anchors": ["unpythonic/collections.py:mogrify", "unpythonic/funutil.py:Values"]}
{"id": "C135", "title": "The REPL client and Ctrl+C", "statement": "In the REPL client, Ctrl+C at any moment of the loop interrupts the server: one interrupt request and one empty line are sent, and the user is asked again when the server shows its prompt. Text from the server is shown once and in order, and typed lines are sent once and in order, except when Ctrl+C is pressed in one of a few instants between two statements: there text can appear twice or get lost, and a typed line can get lost (refuted, with the instants named). A Ctrl+C that comes while the client is busy with another one ends the client (refuted). Without Ctrl+C the client acts as in C112. On the control channel every request that is sent is handled by the server and gives its own reply, unless Ctrl+C is pressed while the client waits for one: from then on every request gives None (refuted).", "quantifier": "every data from the server in pieces of any size, every typed lines, every sequence of moments at which Ctrl+C is pressed, and every answer of select", "why_tests_cant": "The moment of a KeyboardInterrupt is not under the control of a test; it can be between any two statements, any number of times.", "anchors": ["unpythonic/net/client.py:connect", "unpythonic/net/client.py:ControlClient.send_kbinterrupt", "unpythonic/net/client.py:ControlClient._remote_execute", "unpythonic/net/util.py:socketsource"]}
{"id": "C136", "title": "Blocks of dynamic assignment as objects", "statement": "A block made by dyn.let(...) can be kept and entered any number of times, also while it is entered. Its names have locations of their own from when it is made: entering it gives the values it has now, only assignments while it is entered change them, and after each `with`, however it ends, the same blocks are entered as before. If each block is entered once, where it is made, this is C29. (Refuted: that entering a block again binds its names to the values given to dyn.let, and that leaving a block that was entered twice restores the values from before.)", "quantifier": "all programs that make, enter (nested, repeatedly), assign, update, raise and catch; all names and values", "why_tests_cant": "All nestings and repetitions of blocks and all exception points.", "anchors": ["unpythonic/dynassign.py: _EnvBlock, _Dyn.let, _Dyn._resolve, _Dyn.__setattr__, _Dyn.update"]}
{"id": "C137", "title": "The simple let and letseq macros", "statement": "let[[x, e], ...][body] of syntax/simplelet.py evaluates the values from left to right where it stands, then the body in a new scope with the names; letseq[...][body] evaluates each value where the names before it are bound. The expanded program gives the same value or exception, the same output and the same variables, and ends exactly if the program means something that ends. Expansion is refused exactly if a let binds nothing or a name twice. The body changes no variable of a function that was running. (Refuted: that an assignment expression in the body reaches the variable of the function around, and that the body can read such a variable and assign to it.)", "quantifier": "all expressions with names, numbers, lambdas, calls, assignment expressions, conditionals, output, exceptions, and let and letseq nested in any way", "why_tests_cant": "All programs, nestings, orders of evaluation and exception points; programs that do not end.", "anchors": ["unpythonic/syntax/simplelet.py: let, letseq"]}
{"id": "C138", "title": "Dynamic assignment in generators and other interleaved code", "statement": "When several pieces of code of one thread run interleaved (generators, coroutines, context managers entered and left by hand) and each enters and leaves dyn.let blocks, then, if blocks are left in the reverse of the order in which they were entered (in particular if nothing yields inside a block), every read, assignment and update sees exactly the blocks that are open, the one entered last being innermost. In any order, if no block is empty, what is seen is what would be seen if one piece of code took all these steps: leaving leaves the block entered last, whoever entered it. In any order at all, blocks entered before stay entered, leaving never fails, and once all have left, the same blocks are entered as before, so that if nothing is assigned every variable reads as before. (Refuted: that a variable is bound for the extent of its block and only then. The first time a block is left while a later block of other code is open, the variables of the block left stay bound and those of the other block are gone.)", "quantifier": "all sequences of steps of any number of pieces of code, making, entering and leaving blocks (also the same block again), reading, assigning, updating and setting defaults", "why_tests_cant": "All interleavings of any length; tests try a few nestings.", "anchors": ["unpythonic/dynassign.py: _EnvBlock, _Dyn, make_dynvar"]}
{"id": "C139", "title": "Traversals that macros are built with: detect_callec, detect_lambda, transform_statements", "statement": "detect_callec(tree) gives ec, brk, throw and the first parameters of exactly those functions in the tree that call_ec is applied to where they are made (as a decorator of a def, or around a lambda, among other decorators or not), and fails with an IndexError exactly if one of them has no plain positional parameter. isec recognizes exactly the calls by a bare known name. detect_lambda(tree) gives the lambdas that were there before the do[] forms in the tree were expanded, each once, in source order, also for forms inside of autocurry. transform_statements calls f once for each statement of the body, inner ones first, never for what f returned; if f makes good statements out of a statement whose inner ones are good, all statements in the result are good; what f leaves alone is unchanged. (Refuted: the claim on detect_lambda for trees that call a function or method called dof.)", "quantifier": "all trees, at any depth and nesting; all transformers f, with a state of their own", "why_tests_cant": "All trees and all functions f.", "anchors": ["unpythonic/syntax/util.py: isec, detect_callec, detect_lambda, transform_statements", "unpythonic/syntax/letdoutil.py: isdo, ExpandedDoView"]}
{"id": "C140", "title": "The report of an exception by the test framework", "statement": "describe_exception(exc) returns the whole history that led to exc, first exception first: for each, its traceback if it has one, its type and its message if not empty; between two, the sentence that tells whether the first was the direct cause of the second, or was being handled when the second was raised. The direct cause goes before the context, and a suppressed context is not followed. An exception class is reported by its name. (Refuted: that there is always a report; there is none if an exception is among its own causes, or if the history is longer than the recursion limit.)", "quantifier": "all exceptions and all chains of causes and contexts, of any length, shared or circular; any recursion limit", "why_tests_cant": "All chains of exceptions.", "anchors": ["unpythonic/test/fixtures.py: describe_exception"]}
{"id": "C141", "title": "timer measures its block; callsite_filename gives the file of the caller", "statement": "After `with timer(p) as t: body`, t.dt is the time that the body took, whatever other timers do meanwhile and however the body ends; it is printed if p is true, and stays until the timer is left again. The time of an outer block is that of a block within it and what comes before and after. Before the timer is entered there is no dt (AttributeError). callsite_filename() returns the file of the nearest caller that is not one of the helpers of curry, lazify and call, and fails with an IndexError if there is none. (Refuted: a timer entered again within its own block; a user's own function that has the name of a helper.)", "quantifier": "all programs that make, enter, leave and read timers, all durations and times of the clock; all call stacks", "why_tests_cant": "All interleavings of timers, all stacks.", "anchors": ["unpythonic/misc.py: timer, callsite_filename"]}
{"id": "C142", "title": "Handlers made by invoker", "statement": "A condition that is signalled at any depth inside of a `with restarts` block, and whose innermost handler is invoker(name, arg), leaves the block with the result of the block's own restart of that name on arg, and nothing else is run in between; in particular, `with handlers((T, invoker(name, arg)))` around restarts(name=lambda x: x) gives arg, and the stacks are as before. If there is no such restart, ControlError is raised if nobody handles that. (Refuted: that there is always an outcome; if the same handler is for ControlError as well, as one for Exception is, and there is no such restart, the signal never ends.)", "quantifier": "all programs around the signal, all conditions, handlers and restarts, at any depth", "why_tests_cant": "All nestings of blocks around the signal; the loop is not a finite run.", "anchors": ["unpythonic/conditions.py: invoker, invoke, signal, restarts, handlers"]}
