# Formal model of libglibutil: design

The source under `/repo` is read as text. Nothing is built or run. The model lives in
`rocq/theories`, one group of files per source module:

* `XModel.v`  : Gallina functions, one per C function, each citing file and lines.
* `XSpec.v`   : the specification, written without the model's helpers.
* `XProofs.v` : lemmas.
* `XProps.v`  : the theorems claimed in `MANIFEST.json`, each `exact` a lemma, followed by
  `Print Assumptions` and by concrete examples that satisfy the hypotheses.

## Conventions

* `Base.v` defines `res A := Ok a | Fail fault`. A fault is a distinct outcome: out of bounds
  read or write, signed overflow, bad shift, division by zero, call through NULL,
  use after free, double free, uninitialised read, allocation abort, no fuel.
  Theorems that a function is safe say that it returns `Ok`.
* C integers are `Z`; the wrap to 32 or 64 bits is written where the C type wraps.
  Signed arithmetic that can overflow is either checked (`Strict`: overflow is a fault) or
  two's complement (`Wrap`), by an explicit dialect parameter.
* Loops are structural recursion or take fuel; running out of fuel is the fault `NoFuel`,
  and a theorem excludes it (or shows that it is unavoidable).
* Memory blocks are lists with checked access. `GUtilRange`/`GUtilData` are a block plus
  integer offsets in a flat address space: an out of bounds pointer is not a fault until
  it is dereferenced.
* Callbacks and schedules: a small-step machine whose labels are the environment's choices;
  a theorem quantifies over all label sequences.
* If a property is false of the faithful model the file has a `..._refuted` theorem with a
  witness and a `..._partial` theorem with the strongest true version we found.

## Trusted base

* Coq's kernel (8.16.1).
* Axioms: none. `Print Assumptions` after each theorem says "Closed under the global context".
  (Loading the standard library's `ZifyBool` also loads ssreflect's `Under_rel` module type
  parameters; no theorem depends on them.)
* The faithfulness of the transcription from C to Gallina (each definition cites its lines).
* GLib and libc calls, modelled by their documented behaviour and listed per module below.

## Plan per property

| Property | Model | Proof |
|---|---|---|
| C01-C08 | `Datapack`: MBN size/encode/encode2/decode/decode2, buffers with checked access | digit-by-digit induction; refutations for C05 (10-byte form), C08 (9-byte negative) |
| C09-C14 | `Datapack`: tlv_size/encode/decode, tlvs_decode | on top of MBN lemmas; refutations for C10, C12, C13, C14 (lengths >= 2^63 or 2^32, zero tag) |
| C15-C20 | `Ring`: every function on (array, start, end, alloc, max) | representation invariant, refinement to a list; C16, C17, C18 refuted in general |
| C21 | `Ring` with reentrant free function as a stack machine | refutation, partial for non-reentrant |
| C22-C25 | `History`: entries array, first, count, clock as input | refinement to a list of timed samples |
| C26-C28 | `Hex`: hex2bin, bin2hex, hex2bytes, hexdump | induction on the block |
| C29-C30 | `Parse`: strstrip, strtoll/strtoull modelled from the C standard + glibc errno | case analysis on the numeral grammar |
| C31-C35 | `Data`: data/bytes/range helpers | induction, word loop for xor |
| C36-C39 | `IntArray`: GArray as list + operations | induction |
| C40-C45 | `Ints`: heap of reference counted blocks | invariant over all operation sequences |
| C46-C50 | `Strv`: NULL-terminated arrays of strings | induction; bsearch as the libc/GLib loop |
| C51-C52 | `Objv`: arrays of objects + reference counts | balance lemma per operation |
| C53-C57 | `IdleQueue`: reentrant stack machine | invariant over all label sequences |
| C58-C61 | `IdlePool`: reentrant stack machine | invariant over all label sequences |
| C62-C68 | `Log` | structural recursion on the parent chain, strings as lists of bytes |
| C69-C71 | `Inotify` | state machine over operations and event buffers |
| C72 | `RefCount`: interleavings of atomic ref/unref | invariant over all schedules |
| C73 | `WeakRef` | state machine |
| C74-C75 | `Macros` | arithmetic |
| C76 | `TimeNotify` | state machine |
| C77 | `Ptrv` | induction |
| C78-C80 | `Data`, `IntArray`, `Ints` | on top of their lemmas |
| C81-C82 | `IdleQueue` | fair executions, invariant |
| C83-C85 | `Log` | strings as lists of bytes |
| C86 | `Macros` | arithmetic |
| C87-C88, C92 | `Inotify`, `Cb` | invariant over all label sequences |
| C89-C90 | `Time` | invariant over all label sequences |
| C91 | `Keep`: `IdlePool` with reference counted objects | balance of references over all label sequences |
| C93 | `Desc`: `Log` | the table against the parser |
| C94 | `Dpool`: threads, contexts, thread-specific pools | invariant over all label sequences |
| C95-C96 | `Tlv32`, `Size32`: `Datapack`, `Hex`, `Data` with 32-bit sizes | agreement with the 64-bit models below a limit; refutations above |
| C97 | `Release`: arrays of identifiers removed while notifications run | effects of steps; invariants for all clients, for careful ones, and for a call from its begin to its end |
| C98 | `Message`: fields in a row, over `Datapack` and `Data` | encodings of one kind are prefix-free; induction over the fields |
| C99 | `Final`: arrays of objects with finalizers inside | reference counts against held references per variable; one variable changes at a time |
| C100 | `Words`: programs with string arrays, over `Strv` | ownership: each string in memory belongs to one element or to the program; operations on lists |
| C101 | `RingRoom`: capacity, over `Ring` | three numbers determine all answers; refuted for reservations beyond the limit |
| C102 | `Variant`: floating references, copies of data, pool | relation to accounts over all programs; refuted for claims after giving |
| C103 | `Report`: messages and dumps while log functions act | invariants over all runs of client and library; refuted for freed bytes |

## What is modelled, and what is not

### `Datapack` (gutil_datapack.c)
All functions of the file except the `guint`/`gint32` wrappers that only narrow a type.
Pointers are offsets into one block; comparisons of pointers are comparisons of offsets.
NULL arguments are modelled where the code tests for them. Not modelled: `g_malloc` failure.

### `Ring` (gutil_ring.c)
All functions. A NULL ring is not modelled (every function returns at once). Pointers stored in
the ring are integers. `g_new` delivers a block of uninitialised cells up to a limit `L < 2^30`
cells and aborts above it. `g_memdup`-like copies are checked block copies. The reference count
is sequential here; its atomicity is the subject of `RefCount`. Free functions: in the main
theorems they are logged and leave the ring alone; C21 lets them call the ring API again, to any
depth.

### `History` (gutil_history.c)
All functions but ref/unref (see `RefCount`). The clock is an argument of each call: any sequence of
readings in 0..2^63-1, also decreasing ones. `g_malloc0` does not fail. A NULL history is not
modelled (every function returns a constant at once).

### `Hex` (gutil_misc.c: hex2bin, hex2bytes, bin2hex, bin2hexA, hexdump)
`g_ascii_isxdigit` and `isprint` are modelled by their definitions in the C locale; with dialect
`Strict` isprint of a negative char is a fault, with `Wrap` it is false. char is signed.

### `Parse` (gutil_misc.c: parse_int, parse_int64, parse_uint, parse_uint64)
`g_ascii_isspace` does not class the vertical tab as a space (GLib's table), `isspace` does.
strtoll/strtoull follow the C standard and glibc; the points where implementations differ are the
fields of a record `libc` and all theorems hold for all its values. A duplicate of the string by
g_strdup is a copy of the list.

### `Data` (gutil_misc.c: data_*, bytes_*, range_*, memdup, strlen0)
A GBytes is its address, pointer and size; reference counts of GBytes are not modelled, the result
says which argument was referenced. memcmp, memcpy of NULL with size 0 is a fault with dialect
`Strict`. The word loop of bytes_xor is modelled for any word size and byte order, with alignment
faults for `Strict`. range_init_with_bytes is in `Message`.

### `IntArray` (gutil_intarray.c)
All functions. GArray is modelled down to its block: capacity, memmove and memcpy are checked, cells
that were never written are distinguished. Its growth policy is a parameter `grow` with
`n <= grow n`. Source arrays do not overlap the array's own block. A failing g_return_if_fail leaves
the array alone and is counted (`crit`); g_array_remove_range checks `index <= G_MAXUINT - length`
(recent GLib; older ones corrupt the array in the case of C38). g_array_sort is GLib's merge sort.
GLib's own calls with a zero count return at once. The ints block returned by free_to_ints is given
by its contents; see `Ints` for what happens to it.

### `Ints` (gutil_ints.c)
All functions; `gutil_ints_new` (a copy by g_memdup) is `CNew Take`. NULL blocks are modelled for the
pure functions only (the others return at once). A block of memory has a state: in use, released,
handed to the caller. `KFree` is g_free of the data pointer itself: `new_with_free_func(data, n, g_free,
other)` with another user_data is not modelled. User free functions release the block and do not call
the API. Reference counting is sequential here (see `RefCount`). ints are 32 bits, size_t 64.

### `Ptrv` (gutil_misc.c: pointer arrays and ids)
`gutil_ptrv_length`, `gutil_ptrv_is_empty`, `gutil_ptrv_free`, `gutil_source_remove`,
`gutil_source_clear`, `gutil_disconnect_handlers`. An array is a list of cells (NULL, pointer to
object n of a heap, never written), so reading beyond the terminator into unused memory is an error.
The array's own memory is a value (it is consumed by the functions which free or reallocate it).
GLib's tables of sources and handlers are a list of live ids and a counter of removals of dead ones.
`PtrvModel` also has the helpers shared by gutil_strv.c and gutil_objv.c (find last, remove).

### `Strv` (gutil_strv.c)
All functions. Strings are lists of characters 1..255 in a heap of strings. strcmp is any function
whose sign is that of the lexicographic order of unsigned characters and which is not INT_MIN; qsort is
any function which sorts when the comparison is consistent (ISO C); bsearch is the loop of glibc;
g_strstrip and g_ascii_isspace are modelled after GLib. `g_renew` never fails and its size never
overflows. Varargs are the list of arguments in front of the terminating NULL.
`array` says that each string belongs to one element and that there are less than 2^31 of them.

### `Objv` (gutil_objv.c)
All functions. A GObject is its number of references (finalizers: see `Final`); floating references and the
reference count's overflow are not modelled. `fits`: an array has less than 2^60 elements (8 bytes each
in a 64-bit address space). Arrays have addresses only where the code compares them or reallocates one
while reading the other. NULL objects are modelled as arguments of the functions but not in programs.
Programs (`C52_programs`) use any number of arrays and references of their own.

### `IdleQueue` (src/gutil_idlequeue.c)

Modelled: every function of the file except the GASSERTs (compiled out in release builds), and `gutil_source_clear`
(gutil_misc.c:96-108). A queue is a structure with the ends of a singly linked list; items live in a heap of cells which
are allocated, freed and never reused, so a stale pointer is always detected (`UseAfterFree`).

Callbacks are calls of unknown client code, which may call anything again. The model is therefore a machine with a stack
of the functions in progress (`frame`): a loop stops at each callback, the client then does any actions it likes, and
`AReturn` lets the innermost function continue. `run start l` is an execution; theorems quantify over all lists `l` of
actions, so no assumption is made about what callbacks do or how deep they nest. Each step adds to a trace, and
IdleQueueSpec.v says in terms of the trace alone what is waiting (`pending`), which sources exist, what is in progress.

Not modelled or simplified:
- Threads: one thread uses the queue and its main context. `g_atomic_int_*` on ref_count are plain operations.
- `ref_count` is an unbounded integer.
- One queue at a time; callbacks are identified by being there or not, and by their data.
- GLib's main loop: `g_idle_add` returns a new nonzero id every time; `g_source_remove` of an unknown id is recorded as a
  misuse (`EBadUnsource`), a source is not called while it is being called (no G_SOURCE_CAN_RECURSE), a callback may run
  the main loop. When the loop calls the source again is up to the execution; priorities are not modelled.
- Allocation never fails (`g_slice_new0` aborts), ids are natural numbers.

`C57_refuted` is the case of a client which drops the last reference to the queue in a run callback: line 92 then reads
the freed queue. The header does not say it is forbidden. `C57_safe_partial` and `C57_careful_partial` give two conditions
under which every execution is safe.

### `IdlePool` (gutil_idlepool.c)
One pool, any number of threads, a most general client. Modelled: new, get (for a shared variable),
ref, unref, destroy, drain, the idle callback and add. The machine stops in front of every loop test,
callback and source removal, so that calls from callbacks, nested main loops and idle callbacks on
other threads interleave there. Reference counts are unbounded integers (overflow of gint is not
modelled). The main loop is given by three rules: it calls only sources which exist, does not call a
source from inside itself, and drops the reference of the source when it is removed or has returned
G_SOURCE_REMOVE. g_source_remove of a source which does not exist is an event (`EBadRemove`), not a
fault. Between two stops a thread is not interrupted: data races on `idle_id` (a wrong thread writes
it without synchronisation) are not modelled. Destroy functions are those of the client or
gutil_idle_pool_unref_1 on the pool itself. add with a NULL
function are not modelled; the thread-specific default pools are in `Dpool` (this module takes the source of the
pool to be in the default main context, where g_source_remove finds it); add_strv, add_object, add_variant, add_ptr_array, add_bytes are in
the `Keep` model.
A client is `fair` if it uses the pool while it has a reference or the shared variable points to it,
adds and drains on the thread of the pool only, and drops only references it has. It is `careful` if
it also has a reference while it drains. `home` says that sources are called on the thread of the pool.

`C61_points` and `C61_private` were added after wrong variants of the variable handling: before them only proof scripts
broke, no statement was false.

### `Log` (gutil_log.c)
Modules are records addressed by their position, the default module is at 0; the chain of parents may
be circular, so the recursive functions take fuel and the theorems say "from some fuel on". Modelled:
the decision whether a message is logged and which log function gets it (logv, enabled), the hex dump,
the timestamp format with its heap blocks, the formatting loop with its buffers (`int` sizes, so that
overflow shows), the lines for stdio and syslog, the flags for GLib, level and option parsing, the log
type with the calls of openlog and closelog, and the environment variables. A format string with its
arguments is represented by what it stands for: a text, or an error of vsnprintf. What strftime makes
of a format is a function given from outside; if it does not fit, the array has unspecified contents
and printing it is a fault. g_ascii_strcasecmp and g_ascii_strncasecmp return 0 for NULL, as they do
in GLib after complaining. In the dump all lines are made before the first one is logged: log
functions are assumed not to change the configuration (`Report` is without this assumption). Not
modelled: the Windows branches, fprintf and fflush themselves, and the macros (GLOG, GASSERT).
gutil_log_assert is in `Report`.

### `Macro` (gutil_macros.h, gutil_version.h, gutil_version.c)
G_ALIGN2/4/8 and the version macros for operands of type int, unsigned int and the 64 bit types (an
operand of a smaller type is promoted to int), with conversions and overflow. The specific version
macros are modelled by their text, of which only the balance of parentheses and the equality with the
expected text matter. Not modelled: G_CAST, G_PACKED, gutil_slice_free.

### `Inotify` (gutil_inotify.c)
The whole file, as a transition system: a client calling any function at any time, also inside
handlers; the main loop, which may be run by handlers; the kernel (objects, watch descriptors, reads
of up to 272 bytes); other threads opening and closing files. Memory blocks, descriptors, sources,
the hash table, the read buffer with its uninitialized bytes and the alignment of reads are explicit.
The functions which are interrupted are the frames of a stack. `fair` is what is asked of the client
(it drops only references it has, and uses watches it has or is in a handler of) and of the kernel
(complete events). `follows` says what delivery is, in terms of events. The proof is an invariant
(`inv`) of all steps, and further ones of the small changes steps consist of (`micro`).
Trusted: GLib does not call a source inside its own callback; g_io_channel_shutdown closes the
descriptor of the channel; g_signal_emit calls the handlers connected when it began, if they are not
disconnected by then, in the order of connection, and keeps the object; inotify_add_watch returns the
descriptor of an object which is watched already, else a new one; inotify_rm_watch and deletion of the
object end the watch. One thread uses the library.
Simplified: masks and path strings are left out; a finalized watch is freed before, not after,
gutil_inotify_unref; g_io_channel_unix_new and allocations do not fail; the numbers of handlers and
watch descriptors do not wrap around; the events IN_IGNORED which the kernel adds are ordinary events.

### `Ref` (ref and unref in gutil_ring.c, gutil_ints.c, gutil_history.c, gutil_idlepool.c, gutil_idlequeue.c, gutil_weakref.c)
Any number of threads, each with the references it has and with the rest of the library function it is
in. One step of a thread is one atomic operation on a count, or one access to an object. Objects have
references to other objects (elements of a ring, items of pools and queues, the parent of integers),
which the last unref drops. `refs` counts references; it does not look at the counts of objects.
`fair`: threads use references they have (`disciplined`), less than 2^31 references to an object
(`few`), gutil_ints_unref_to_data with a spare reference (`spare`).
Trusted: g_atomic_int_inc and g_atomic_int_dec_and_test are atomic and full barriers, which is why
memory is taken as sequentially consistent.
Simplified: containers are changed in one step (`AHold`), that is, by clients which use a lock; what
else is in objects is left out; elements of which the free function does something else than to unref
an object of the library are left out.

### `Weak` (gutil_weakref.c)
The whole file, with the weak locations of GObject (g_weak_ref_set, _get, _clear, and the last
g_object_unref, which clears them before dispose) as they are in GLib 2.32 to 2.74: a weak reference
freed without being cleared would be written to later. One action is one operation which is atomic
because of weak_locations_lock or an atomic counter, so sequences of actions are the executions of any
number of threads. Objects may get references again in dispose. Spec: `aim` and `strong` are computed
from the events only. `fair`: clients use references they have; no weak reference is set to an object
while it is disposed (GLib does not support that).
Trusted: the description of GObject in `WeakModel.v`. Simplified: counts do not overflow, GASSERT is
left out (both are in `Ref`).

### `Time` (gutil_timenotify.c)
The whole file except the GObject type registration: the static instance with its weak pointer, the
timer file, its GIOChannel and GSource, the callback (an error, or an emission of the signal during
which the client may do anything, including dropping the last reference) and finalize, with
gutil_source_remove of gutil_misc.c. timerfd_create may fail. Spec: references, connected handlers and
whose turn it is are computed from the events only. `fair`: clients use the object while they have a
reference or are called by it; the main loop calls sources which it has and which are not running.
Trusted: the description of GObject references and weak pointers, of g_signal_emit (the handlers
connected when it begins, skipping those disconnected meanwhile), of GIOChannel (close_on_unref, the
reference held by the source) and of GSource in `TimeModel.v`. Simplified: the result of
timerfd_settime and what is read from the file do not matter; one thread.

### `Keep` (gutil_idlepool.c, lines 258-382)

The functions which give a string array, an object, a variant, an array or bytes to an idle pool. They are modelled on top of the
`IdlePool` model: the state is a pool, the objects with their types and reference counts, and the list of the pairs of a function and
a pointer which have been passed to `gutil_idle_pool_add` (the data of an item of the pool is the position of its pair). When the pool
destroys an item the function of the pair is called, which drops a reference of the object or reports a fault if the object is gone or
of another type. The destructors of objects can do anything a client can do: between the call and the return of the function of an
item any other actions are possible, as in the `IdlePool` model.

Simplified: the reference counts are unbounded integers; a variant has no floating reference (module `Variant` has them); what an object contains is not modelled.
A NULL pool (the default pool of the thread, line 235) is a pool created by `gutil_idle_pool_new` whose first reference belongs to the
thread, i.e. the client of the model.

### `Cb` (CbModel, CbSpec, CbProofs, CbProps)

`gutil_inotify_watch_callback_new` and `gutil_inotify_watch_callback_free` (`gutil_inotify.c`, lines 408-436) on top of the `Inotify`
model: the state is a state of that model and the callbacks allocated so far, with the watch and the identifier of the handler. A step
is one of that model or a call of one of the two functions. The client (`careful`) frees a callback once, drops only references to
watches which it has taken itself (it gets the watch as an argument of its function) and does not remove the handlers of callbacks.

Proved: nothing goes wrong, and what happens to the watches might be done by a client without callbacks (so that C69-C71, C87, C88
apply); a callback is created if and only if the path leads to something; its function is connected and its watch is there until it
is freed; an event found to be for its watch is told to its function before the main loop goes on; the function is never called
after it has been freed; others which use the watch are not disturbed; nothing is left when all callbacks have been freed. Refuted:
two callbacks for one object are independent.

Not modelled: a NULL function (there is no handler, the identifier is 0 and `gutil_inotify_watch_remove_handler` does nothing); failure
of `g_new`. Simplified: the structure is freed before, not after the second part of `gutil_inotify_unref` (lines 125-129), which other
threads may see but this one does not.

### `Desc` (gutil_log.c 656-684)
gutil_log_description with the table of levels and their descriptions, on the configuration of `Log`.
Spec: the lines of a text, a line with a number and a word, a line with a name, the mark of the default.
The options read in the text are given to the parser of `Log`. GLOG_LEVEL_DEFAULT is a parameter. Trusted:
the description of the three printf formats. Simplified: the result is the text (g_string_free with FALSE
keeps it); "%s" with NULL is a fault (C calls it undefined, GNU libc prints "(null)").

### `Dpool` (gutil_idlepool.c 51-69, 106-257 with a NULL pool)
Any number of threads, main contexts, default pools, sources of pools and of clients. A step of the model is a piece
of code between two places where another thread can be noticed: the loop of the drain, the call of each destroy
function (from which the client may call the API, run main loops, free contexts), `g_source_remove`, the rounds of
GPrivate destructors at thread exit, the destruction of the sources of a context. Threads may have the address of
the GThread of one which is dead. Spec: everything is told in terms of the events (`waiting`, `scheduled`, `owned`),
with four conditions on runs: `fair` (clients drop references which they have; at least four rounds of destructors),
`plain` (no thread-default contexts), `home` (who runs which context), `own` (sources are called on the thread of
their pool). Trusted: GPrivate destructors (value set to NULL, destructor called, repeated while there are values),
identifiers of sources (per context, increasing, never zero, not reused), `g_source_remove` looks in the default
context only and does not run the destroy notify of a source being called until it has returned, freeing a context
destroys its sources. Simplified: interleaving semantics (pool fields are read and written at once, memory model of
C not considered; `loop` takes the list and clears it in one step), a list of items instead of pointers (those are in
`IdlePool`), wrapping of source identifiers is ignored, a source is not dispatched from inside itself. The first
reference to a default pool is never given away: gutil_idle_pool_unref of the client needs a reference of the client.

### `Tlv32` (gutil_datapack.c on a 32-bit platform)
The TLV functions once more, with gsize, gssize and pointers of 32 bits. MBN functions, their specification and
the format are those of `Datapack`. Addresses are offsets into one block as there. A lemma says that both models
agree on inputs without numbers of 2^31 and more.

### `Size32` (gutil_misc.c on a 32-bit platform)
The functions which compute the size of a block: bin2hex, data2hex, bytes_concat, data_new, data_copy. Everything else
is shared with `Hex` and `Data`. A block of any size up to 2^32 - 1 may exist; that the same block may be
given several times is what makes a total of more than 4 GB possible. Not modelled for 32 bits: the other modules, whose
models have no gsize in them or whose theorems do not depend on its size (`Objv`, `Ptrv`: numbers of elements; `Parse`: gint64;
the word size of bytes_xor is a parameter anyway).

### `Release` (`ReleaseModel.v`, `ReleaseSpec.v`, `ReleaseProps.v`)

`gutil_disconnect_handlers` and `gutil_source_clear` when `g_signal_handler_disconnect` or `g_source_remove` calls the destroy notification of the
handler or source inside. The state is one array of identifiers of the client (or freed), the set of connected identifiers, a stack of calls in progress and a
trace. The client acts outside of calls and inside of notifications: it calls the functions for any part of the array, connects something and stores the identifier, frees
the array. Whether a removal calls a notification inside is a choice of the environment. Not modelled: NULL arguments (C77 has them for single calls), wrapping of
identifiers, several arrays (parts of one array stand for them), a source which destroys itself (its identifier stays in the cell; that is a matter of the client).

### `Message` (`MessageModel.v`, `MessageSpec.v`, `MessageProps.v`)

`gutil_range_init_with_bytes`, and clients which write several fields one after another and read them back. The encoders, decoders and prefix functions are those of
`Datapack` and `Data`; the loops of writing and reading belong to the client. A GBytes is its bytes and a pointer which may be NULL if it is empty; the decoders never
look behind a NULL pointer because the range is empty then. Offsets and sums of the client are unbounded. `message` is the format: a concatenation of encodings.

### `Final` (`FinalModel.v`, `FinalSpec.v`, `FinalProofs.v`, `FinalProps.v`)

`gutil_objv_add`, `_copy`, `_remove`, `_remove_impl`, `_remove_at`, `_find`, `_find_last_impl` and `_free` when `g_object_unref` of the last reference calls the client
(dispose, finalize, weak references), who may use arrays there, to any depth. A block of memory is the list of its objects or freed; cells, sizes and
terminating NULLs are those of `Objv`. Whether `g_realloc` moves a block is up to the environment. An object is gone as soon as its last reference is dropped: that dispose may
use the object itself, and may keep it by taking a reference, is not modelled. A function which finds a block with another number of objects than it has counted fails
(OobRead); in C it moves too much or too little. The client stores results in the variable the array came from, as with `v = gutil_objv_remove(v, x, TRUE)`.
`value` replays the calls on lists; it is the specification of what an array has. Numbers of references are unbounded.

### `Words` (programs over gutil_strv.c)
Sequences of calls of the functions of `Strv`, with any number of variables. A program's control flow is whatever leads
to the sequence of calls. Arguments are strings of the program or elements of arrays at the time of the call; the program keeps
no pointer to an element across calls (it may, in C, as long as the element stays). g_strfreev is taken to do what
gutil_ptrv_free does. The specification has lists of strings instead of arrays and no memory.

### `RingRoom` (gutil_ring.c)

Over the model `Ring`, without further definitions of code. `RingRoomSpec.v` keeps three numbers for a ring (elements, capacity,
limit) and says for each call what it answers and what becomes of them; `RingRoomProps.v` proves that all runs of the model
answer so. Thereby C17 and C18, which are refuted, get an exact description: the excess over the limit is what the capacity
allows. The growth policy (at least doubling) is visible to the client as memory, hence `C101_memory`: a run ends in an abort
of the allocator exactly if one of the capacities is more than it can deliver. Found: gutil_ring_reserve(k) answers TRUE for
k beyond the limit as long as the capacity is below the limit, and FALSE when asked again.

### `Variant` (gutil_misc.c, gutil_idlepool.c)

`gutil_data_copy_as_variant`, `gutil_object_ref`, `gutil_object_unref`, and `gutil_idle_pool_add_variant`, `_add_variant_ref`,
`_add_object`, `_add_object_ref` once more, because module `Keep` has no floating references. A variant is its number of references,
the floating flag and its bytes; g_variant_new_fixed_array copies, g_variant_ref_sink either clears the flag or adds a reference,
g_variant_ref and g_variant_unref leave the flag alone (GLib 2.24 and later). There is one pool, the calls are made in the order of
addition; destructors do nothing (they do in `Keep`). A GUtilData with NULL bytes and non-zero size is a fault. The type of the
variant ("ay") is not modelled. `VariantSpec.v` says who owns references and what a client may do with them; the model's
reference counts do not occur in it. Found: neither the code nor the headers claim variants given to a pool, hence
`gutil_idle_pool_add_variant(pool, g_variant_new...())` followed by a function which takes floating variants frees too early, and
`gutil_idle_pool_add_variant_ref` of a new variant which nobody claims leaks.

### `DefinedProps` (DefinedProps.v)

No new code. For the claims refuted only because ISO C leaves a call undefined (C28, C31-C34: `isprint` of a negative number, `memcmp`
and `memcpy` with NULL, unaligned words), two theorems each. `Cnn_defined`: in either reading, if the call returns at all then the result is
right; no condition on the arguments beyond being what they are said to be. `Cnn_undefined`: the arguments for which ISO C does not
define the call, as an equivalence.

### `Report` (gutil_log.c:388-551, while log functions of the client run)
`Log` makes all lines of a dump at once. Here a dump is a frame on a stack and each turn of its loop a
step. When a message reaches a log function of the client (or GLib, which calls handlers of the
client), that function runs until the label LReturn, and may meanwhile log, dump, assign the fields of
modules and the global log functions, write to memory and free it. So the configuration and the memory
are those of the moment. Where a message goes is decided by `logv` and `enabled` of `Log`; here too they
take fuel, as modules may inherit in a circle. The size given to gutil_hexdump is narrowed to guint,
the offset is one. A GBytes is a block which nobody else writes to; dropping its last reference frees
the block. gutil_log_assert is modelled with its text (expr and file are not NULL). Each event carries
the number of labels before it, which is what the theorems mean by time. The standard log functions do
not call the client. Threads are not modelled: the library has no locks here. New modules cannot
appear in the middle, and modules are never freed; a client which does that is outside the model.

### `DefinedLogProps` (no new model)

What `Log` left open about the limits of C62, C64 and C66, about the definitions of `LogModel.v`: a dump which returns is right whatever the bytes and however many log functions and modules are involved (`C66_defined`); with the strict dialect a dump is undefined exactly if it is enabled and a byte from 128 to 254 is among those dumped (`C66_undefined`); `C62_exact` says exactly when `gutil_log` and `gutil_log_enabled` disagree; `C64_exact` covers every option and all modules, with names or without, and says which calls are a NULL dereference. `C66_bytes` and `C66_bytes_undefined` say the same of `gutil_log_dump_bytes`.

### `IntExactProps` (no new model)

C36 to C38 for int arrays of any size below 2^32, about the definitions of `IntArrayModel.v`: where `gutil_int_array_find` reads an unspecified element and which int it returns for an index of 2^31 or more (`C36_find_exact`), which elements the four removing functions leave behind (`C37_remove_exact`, `C37_remove_all_exact`, `C37_remove_all_fast_exact`) and that a range whose end overflows is left alone with a warning from GLib (`C38_overflow`).

### `TlvExactProps` (no new model)

C10 to C14 without limits, about the definitions of `DatapackModel.v`. `walk` and `hop` say where a list of TLVs leads, with the length of each added modulo 2^64: `C10_exact` and `C10_outside` say what one TLV decodes to and when its value lies outside of the input; `C11_exact` gives the result and the array of `gutil_tlvs_decode` for any input and any tags; `C12_exact` says that it does not return exactly if the walk comes back to a position, meeting only tags which were not asked for; `C10_reads_exact` says that it reads in front of the input exactly if the walk gets there; `C14_exact` gives `gutil_tlv_size` for all sizes.

### `StrvLimitProps` (no new model)

C46 and C51 beyond the limits, about the definitions of `StrvModel.v` and `ObjvModel.v`: `C46_length_exact` (modulo 2^32), `C46_find_exact` (signed overflow from 2^31 strings in front on), `C46_last_exact` and `C46_equal_exact` (no end from 2^32 strings on, for the comparison if both arrays have as many), `C51_at_endless` (2^32 objects or more and a position of 2^32 or more).

### `DataLimitProps` (no new model)

C35 and C80 beyond the limits, about the definitions of `DataModel.v` and `IntsModel.v`: a copy has as many bytes as the size modulo 2^32 says (`C35_data_copy_exact`), and a value at position 2^31 or later is found at its position minus 2^32 (`C80_find_exact`).

### `RingCb` (RingCbSpec.v, RingCbProps.v)

Extends C21 to free functions which use the ring while `gutil_ring_drop`, `gutil_ring_drop_last` or
`gutil_ring_set_max_size` calls them, or `gutil_ring_unref` (where only what is released can be
seen). What the function does at one of its calls is a `prog`: a
sequence of API calls, each depending on the results of the previous ones. `drops_last` and
`drops_first` say which contents the function sees (without the released element in the case of
`gutil_ring_drop_last`, including it in the case of the other two) and which elements are
released. The programs allowed here only observe and add; two refutations show why. No model
definition was added.

### `StrvBig` (StrvBigProps.v)

`gutil_strv_add`, `gutil_strv_remove_at`, `gutil_strv_sort` and `gutil_strv_bsearch` with any number of
strings below 2^64 (C47, C49): they use the length modulo 2^32 (as an `int` in the case of `remove_at`),
so that the first strings only are sorted and searched, strings behind them are lost, or the array is
left without its NULL. No model definition was added; blocks of that size are assumed to be available.

### `LogLimit` (LogLimitProps.v)

C67, C83 and C84 for messages which cannot be formatted or have INT_MAX characters and more, and for
timestamps of 32 characters and more: together with the partial theorems of `LogProps.v` every case is
covered. No model definition was added.

### `Tlv32Exact` (Tlv32ExactProps.v)

C95 for any input, lengths of 2^31 and more included: where each TLV leads (`hop32`), what has been met
on the way (`walk32`), what gutil_tlvs_decode returns then, and exactly when it does not return or reads
in front of the input. The counterpart of `TlvExactProps.v` for 32 bits. No model definition was added.

### `DescExact` (DescExactProps.v)

C93 for names with newlines, with colons, names which differ in the case of letters only, and modules
without names: the text in all cases, which module an option sets, and refutations. No model definition
was added.

### `StrvAddv` (StrvAddvProps.v)

C47 for adding several strings to an array of any length. The number of arguments is below 2^32. No
model definition was added.

## Wrong variants
`seeded/LOG.jsonl` has one line per wrong variant of a model. `theorems_failed` are the theorems whose proof no longer goes
through, directly or because of a lemma they use. It does not say that each of these statements has become false: a changed
definition often breaks a shared lemma. `theorems_tightened` are the theorems which were added or made stronger because
none of the existing statements excluded the variant.
