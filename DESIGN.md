# Formal model of vipally/gx in Rocq (Coq 8.16.1)

This directory contains a machine-checked model of the Go code in `/repo`
(read as text, never built or run) and proofs of the properties listed in
`properties.jsonl`.  `MANIFEST.json` maps every property to the theorems that
settle it.

## 1. Trusted base

* Coq's kernel (8.16.1), including its `vm_compute` machine.
* The axioms printed by the `Print Assumptions` command below each theorem in
  the `*Props.v` files.  Section 5 lists them.  No axiom is declared here.
* The models (`*Model.v`): that each definition says what the cited lines of
  `/repo` say.  Every definition carries a comment with file and lines and,
  where it simplifies, what it leaves out.
* The Go semantics assumed by the models, section 3.

## 2. Layout

`rocq/theories/` holds, per area `X`:

* `XModel.v`   definitions only: the code, function by function;
* `XSpec.v`    (where needed) the independent specification vocabulary;
* `XProofs.v`  lemmas;
* `XProps.v`   the property theorems, each closed by `exact lemma`, followed by
  `Print Assumptions` and by a concrete `Example` that meets its hypotheses.

Naming: a theorem that settles a property completely has no suffix;
`_partial` marks a theorem that covers only part of the English statement (the
comment says what is missing); `_refuted` marks a theorem that exhibits a
concrete counterexample to the English statement, i.e. a defect of the code.

## 3. How Go is modelled

* Fixed-width integers: unsigned values are `Z` or `N` with explicit
  `mod 2^32` / `mod 2^64` at each operation that can wrap.  `int` (64 bit) is
  modelled as unbounded `Z` where the code only uses it for lengths and indexes
  (a slice longer than 2^62 cannot exist) and with explicit wrap elsewhere.
* Panics (index out of range, nil dereference, division by zero, explicit
  `panic`) are an explicit `Panic` outcome, never a default value.
* Loops whose termination is not structural take fuel; running out is an
  explicit outcome `Diverge`, and theorems either exclude it or, for loops that
  never end, show that it is returned for every amount of fuel.
* Pointers: nodes are natural numbers, the heap is a finite map from node to
  record, allocation picks an address outside the domain, memory is never
  reused while referenced (garbage collection).
* Slices: a list plus, where aliasing or capacity matters, an explicit backing
  array.
* Goroutines: a small-step machine whose state holds the shared words and one
  program counter with locals per goroutine; each atomic operation or plain
  shared access is one step; a schedule is any list of goroutine choices.
  Sequential consistency is assumed (Go's `sync/atomic` guarantees it).
* Calls into Go's standard library (`sort.Sort`, block ciphers, hash functions,
  file system, `fmt`) are either modelled concretely (number formatting,
  hex/base64, path cleaning) or are parameters of the theorems with their
  documented contract as an explicit hypothesis.
* Code templates (`*.gp.go`) are modelled with the type parameter instantiated
  by `int` or left abstract.

Some packages of the repository do not compile as committed.  They are
modelled as they read, with the obvious resolution noted here:

* `crypto/rsa` `GenRsaKeys` returns `""` for `[]byte` results next to an error: read as nil;
* `errors` declares `Reg` twice (`errors/errors.go`): the body with the code is
  modelled;
* `regable` imports package `math` under a wrong name: read as `gx/math`;
* `time/time_sys.go` declares `autoUpdate` twice: not modelled (empty bodies);
* `fs/tree.gp_filehash38b3.go` and its sort slice disagree on type names, and
  `fs/file_path.go` reads the fields of the node's value as fields of the node:
  the names are resolved and the fields read from the value;
* `proto/integer.go` returns `int32(me)` as an `int64`: not modelled.

### Concurrency

* One atomic operation, or one plain access to shared memory, per step; the
  operations of `sync/atomic` are sequentially consistent.  Local computation is
  merged into the step that precedes or follows it.
* The step of an idle goroutine that makes a call is the invocation; the step
  before it becomes idle again is the response.  Histories are lists of
  invocations and responses, and linearizability is defined over them in
  `ConcBase.v` (all complete and incomplete calls, real-time order kept).
* Nodes that are allocated get a fresh address: an address is not used again
  while a goroutine may still hold it (garbage collection), so that compare-and-
  swap on pointers has no ABA problem beyond the one of the code.
* A panic inside a call is the result of the call; the goroutine may recover and
  call again.

### Standard library

Modelled concretely, from its documented behaviour: `fmt` verbs %d %0nd %x %.3f,
conversion of a uint64 to float64, `strings` Split, SplitN, TrimSpace, Index,
Count, TrimSuffix, `bufio.Reader.ReadString`, `encoding/hex`,
`encoding/base64`, `time.Duration.String` and `ParseDuration`,
`path/filepath` Clean, Split, Join, Rel, Dir on Unix (separator `/`, no volume
names, no symbolic links), the block modes CBC of `crypto/cipher`, AES
as in FIPS 197 and DES as in FIPS 46-3.

Parameters of the theorems, with their contract as a hypothesis: block ciphers
(`D (E b) = b` on blocks; instantiated by AES and DES themselves from C205 on), hash functions (any function, fixed output length
where sliced), `sort.Sort` (returns a sorted permutation; where the code's own
`Swap`/`Less` matter the calls are modelled), RSA primitives, readers and writers
(any script of results allowed by `io.Reader` and `io.Writer`), the directory
tree (does not change during a call; `Readdir` returns its entries in any order
and never `.` or `..`; no links or devices).

## 4. Properties and how each is treated

| id | model | method |
|----|-------|--------|
| C01 | `CmpModel` functorcmp | direct, order laws on Z |
| C02 C03 C04 C05 C56 | `HeapModel`: array = list Z, adjustUp/adjustDown with hole as in the code, both template branches | heap-with-a-hole invariant, permutation; histories by induction over operation lists (`HeapHistory`) |
| C06 | `HeapModel` reverse | index characterisation; empty slice panics (refutation) |
| C07 | `StackModel` | refinement to list |
| C08 C09 C57 | `QueueModel` ring buffer with head/tail/buffer | refinement to list under an API-level condition; exact behaviour for every history; refutations by computed histories |
| C10 C11 C58 | `DequeModel` | same |
| C12 C59 | `SortSliceModel` slices with backing arrays | exact result of each edit; Insert refuted |
| C13 C14 C15 | `TreeModel` rose trees, visitor with explicit stack | zipper invariant: visitor state = position in pre-order |
| C16 C17 C18 C19 C20 C66 C67 | `ListModel` pointer heap, cyclic doubly linked list, any number of lists | representation predicate, simulation by sequences (`ListCore`, `ListRefine`), histories by induction; merge sort proved on the pointer level (`ListSort`) |
| C21 | `ListModel`, `SListModel` | exact result, refutation |
| C22 C24 C25 C69 C70 | `SListModel` pointer heap | representation predicate, simulation |
| C23 C68 | `SListModel` has_cycle with fuel | exact verdict for every chain shape (`SListCycle`) |
| C26 C27 C71 | `LFQModel` interleaving machine | inductive invariant, linearization trace |
| C28 C29 C72 C73 | `RingModel` interleaving machine | inductive invariant on tickets; sequential refinement (`RingSeq`) |
| C30 C31 C74 | `LFDModel` | sequential refinement; schedule witness for the race (`LFDConc`) |
| C32 C33 | `MathModel` | Z bit lemmas; digit lists, induction on thousands |
| C34 C35 C60 C61 | `NumModel` range counters and sequences | exact behaviour, refutation for exhaustion |
| C36 C37 C62 C63 | `NumModel` prime, `PrimeData` the table | number theory, the table checked by computation / digit-by-digit square root invariant |
| C38 C39 C40 C64 C65 | `RandModel` | modular arithmetic, period theorem for power-of-two moduli, interleaving machine |
| C41 C75 | `CryptoModel` padding, with backing arrays | list lemmas, exact conditions |
| C42 C43 C76 C77 C78 C79 C80 | `CryptoModel` over an arbitrary invertible block cipher, RSA and hash functions | induction over blocks and messages (`CryptoCipher`, `CryptoMain`) |
| C44 C45 C46 C81 C82 C83 | `RegModel` mapping, registries, error codes | invariants over histories, arithmetic |
| C47 C84 C85 C86 C87 | `IoModel` readers and writers as scripts | induction over read chunks |
| C48 C88 | `IniModel` byte strings | line-by-line refinement to a declarative specification |
| C49 C50 C89 C90 C102 C108 | `SpinModel` interleaving machine | invariant; schedule witnesses; bound on the steps of a call (`SpinRW`) |
| C51 C91 | `FileSizeModel` | integer arithmetic of float64 rounding and `%.3f` |
| C52 C54 C99 C100 C101 | `FsModel` directory trees | structural induction over trees; order independence by uniqueness of sorted lists (`HashProofs`) |
| C53 C93 C94 C95 C96 C97 C98 C109 | `PathModel` byte strings | where a path leads from a directory (`PathSpec`), canonical form |
| C55 C92 | `DurModel` | arithmetic and text injectivity |
| C103 C104 C105 C106 C107 | `SumModel` package hash over arbitrary checksum functions | refinement over histories; text injectivity; interleaving witness |
| C110 C111 C112 C113 C114 C115 C116 C117 C118 | `RbModel` the template `stl/gp/rbtree.gp.go`, nodes and links in a heap | representation invariant (shape in the heap), refinement to a sorted list over all histories; chains for the cost |
| C119 C120 | `TailModel` the template `stl/gp/slist.gp.go` with GOGP_HasTail, over `SListModel` | refinement over all histories; tail pointer tracked in the abstract state |
| C121 C122 C123 C124 | `FileLockModel` package sync/filelock: one call of the system or of sync.Mutex per step | simulation giving linearizability; invariants over all schedules; deadlock invariant over all continuations |
| C125 C126 | TreeHeapModel: nodes as addresses in a heap, children as the slices of SortSliceModel (array and length), visitors as values; nil children, sharing and cycles possible | Invariant of reachable states (slices well formed, addresses allocated, visitor stacks sound); insertion and removal of the slice from SortSliceProofs; SortChildren from the assumption that sort.Sort gives a sorted permutation. C125 refuted for indices inside |
| C127 | same; All with depth as fuel | `below` relates a node to a finite tree of addresses; least sufficient depths along a failing descent are different, so the number of nodes bounds them; a longer descent repeats a node. Histories without AddChildNode: children have larger addresses and one parent |
| C128 | same; loops of Next and Prev | measure of the stack for Next; for Prev the invariant that stack indices stay inside as children are only added; witnesses for removal and cycle |
| C129 C130 | same | simulation by the visitor of TreeModel on the tree of addresses, kept by edits elsewhere; for appended children the tree and the visitor's stack are grafted and the part of the preorder before the current node is unchanged |
| C131 C132 C133 C134 | `FloatModel` math.Equal over `Coq.Floats.SpecFloat` (IEEE 754 binary64, round to nearest even; no axioms) | shifting with guard and sticky bits, rounding of m*2^e, exact threshold in units of 2^-1074 |
| C135 C136 C137 C138 C139 | `StrRandModel` strings/rand.go over `RandModel` | closed form of the draws, parity of the linear congruence, C65 for the letters that occur; invariant over all schedules with the positions drawn |
| C140 C141 C142 C143 C144 C145 | `UnsafeModel` unsafe/string.go: string and slice headers over blocks of memory, read-only for literals; memory is never freed (so what the collector may do between lines 52 and 53, where the address is an integer, is not modelled) | simulation by a machine of numbered cells; families of values read off the operations; layout invariant for Writeable |
| C146 C147 C148 C149 C150 | `WorkModel` fs/file_line.go (GoPath, WorkPath, Chdir, RelateGoPath, RelateWorkPath; not the functions that ask the runtime for the caller's file and line) over `PathModel` and a fixed directory tree without symbolic links; os.Getwd gives the clean path | element-wise walk related to `leads` of `PathSpec`; invariants over histories and over all schedules |
| C151 C152 C153 | `CreateModel` fs/fs.go Create for one path used by no one else; a limit on open descriptors, an arbitrary garbage collector that may close unreferenced files before each system call (so theorems hold for every behaviour of the collector); the size of a Go stack is not modelled, an overflow is an unbounded recursion | induction over the depth; termination by the time left until the collector stops, then by the free descriptors |
| C154 C155 C156 C157 | `SeedModel` math/rand/rand.go RandSeed and the creation of generators in math/rand/rand.gp_32.go, rand.gp_64.go, calls one after the other; the clocks are arguments of the calls | closed forms over the linear congruences of `RandProofs`; the multiplier is odd, hence invertible; low bits of a linear congruence are one of smaller width |
| C158 C159 C160 | `ErrConcModel` errors/errors.go under concurrent calls over the functions of `RegModel`; critical sections of the read-write mutex are single steps (the mutex is trusted), the unlocked reads in ShowAll are steps of their own and see the last value written (the Go memory model promises less for such races); fmt.Sprintf without arguments is modelled up to the first verb, what it writes then is arbitrary | linearizability by simulation; invariant over all schedules that remembers when the call began and when the count was read |
| C161 | `FactoryModel` factory/*.go | induction over the history |
| C162 C163 C164 C165 C166 C167 C168 C177 | RsaModel: crypto/rsa/rsa.go; RSA with PKCS #1 v1.5 padding of the standard library written out over Z, PEM/X.509/key generation/hash functions as parameters with stated laws (RsaSpec std_ok) | Fermat by the permutation of residues, CRT; big-endian bytes vs numbers; Proth certificates for the example keys |
| C169 C170 | `LFQModel` as for C26; `ProgSpec` counts steps, calls and returns | potential function (`ProgBase`), `LFQLive`, `LFQLive2`; a family of schedules for the refutation |
| C171 C172 | `LFDModel` cd_step as for C31, now with any number of pushers and poppers | invariant over all schedules (ends of the buffer, written cells, counts); potential function (`ProgBase`) with the waiting rounds as extra credit |
| C173 C174 C175 C176 | `BtModel` debug/backtrace.go, debug/assert.go, fs/file_line.go FileLine, RelateFileLine, Func; the runtime is the list of logical frames (inlined calls included), each with the place of its call and the place it returns to | positions in the list; the texts are unambiguous by their digits from the right and the first brace from the left |
| C178 C179 C180 C181 C182 | RaceModel: which memory each step of LFQModel, RingModel, LFDModel and SpinModel touches, and programs that guard data by a lock; RaceSpec: happens-before and data races of the Go memory model (one total order of the atomic operations, as the model's interleaving gives), and what it means that the listed accesses are the true ones ([honest]: nothing else is written and the step depends on nothing else) | invariant "the later accessor knows every earlier conflicting access" carried over the trace; races shown by executions whose order is checked by computation |
| C183 C184 | ErrFineModel.v: errors/errors.go with one step per access to the lock and the variables; RWMutex by the Go memory model | RaceMutex.v: what holders of an RWMutex know of the accesses to the guarded data; ErrFineProofs.v: simulation by the model with whole critical sections; ErrFineLive.v: holders leave, then the call runs alone with a decreasing measure |
| C185 C186 | `RegObjModel` regable/reg.go objects, RegO, String of reger, id and record, ShowAllUint32Regers; regable/regable.go ShowAllRegs (one goroutine at a time) | the simulation of RegProofs.v, extended by names and limits of the regers; the refutation is computed |
| C187 C188 C189 C190 | `RegFineModel`: regable/reg.go with one step per access to the slices, the records and their locks (NewUint32Reger and MaxReg are made by one goroutine before) | data races by RaceMutex.v, simulation by the model with whole calls, holders leave and then the call runs alone; refutations by executions, all orders of the calls excluded by computation |
| C191 C192 C193 C194 | `DurFloatModel`: time/duration.go Days, Weeks, Seconds, Minutes, Hours on IEEE 754 doubles (Coq.Floats.SpecFloat); Seconds, Minutes and Hours of Go's package time as since Go 1.10 | the operations are those of library Flocq, whose rounding theorems on real numbers give order, exactness and errors; witnesses computed |
| C195 C196 C197 C198 | `PathPartModel`: fs/file_path.go Base, Ext, SplitList, Abs and the functions of path/filepath they call, on Unix | the canonical forms of PathProofs.v; induction over the texts |
| C199 C200 | `LFDLazyModel`: stl/gp/lfdeque.gp.go PushBack on the zero value, Init and Clear access by access, PopFront and Size as in `LFDModel` | simulation by the deque after Init(8); what each goroutine knows of the write of d; refutations by executions |
| C201 C202 | `RandModel` (`rnd_step`): math/rand/rand.gp_32.go, rand.gp_64.go Rand, Srand, Seed access by access | weights: steps a call still needs, and what its change of the seed costs the others; an endless schedule |
| C203 C204 | `RingModel` (`cr_step`): stl/gp/ringbuffer.gp.go MustPush, MustPop, Size access by access | every round of running calls moves one of them or all wait; where all wait, the tickets show for what; a schedule with a stopped push |
| C205 | `AesModel`: AES of FIPS 197 (tables, rounds, key schedule) in place of the parameters E and D of `CryptoModel` | byte tables by cases over 256 values, MixColumns by linearity, rounds by induction over the key schedule; CBC chain by induction over blocks and messages |
| C206 C207 C208 C209 | `DesModel`: DES of FIPS 46-3 (tables, key schedule, rounds) in place of the parameters E and D of `CryptoModel`; C208, C209 for every block cipher | permutations composed by computation, rounds by induction; parity: no selected position is the last of its byte; blocks by injectivity of the cipher |
| C210 C211 | MatchModel: filepath.Match of Go 1.8 on Unix, byte by byte (scanChunk, matchChunk, getEsc, UTF-8 decoding) | the grammar and meaning of patterns over code points (MatchSpec) independent of the matcher; chunks parse as the grammar; greedy choice of the first fitting place is complete by counting separators; fuel is the length of the pattern |
| C212 C213 C214 C215 C216 C217 C250 C251 | WinModel: the path functions of `fs` with path/filepath of Go 1.8 as built for Windows (volumeNameLen, Clean, Split, Join, Dir, VolumeName, ToSlash, FromSlash) | volumes and places (WinSpec) independent of the code; recognition of volumes shown equivalent to them; the rest reduced to the lemmas about paths on Unix |
| C218 C219 | WalkModel: Walk with filepath.Walk of Go 1.8 over a directory tree (files, directories, directories that cannot be listed, entries that cannot be examined), the caller's function with its state as a parameter; Statistic over it | the flat list of visits, sorted and complete, and running a function over it with a list of skipped directories (WalkSpec); induction over the tree with what remains of the list as a parameter |
| C220 C221 C222 | LinkModel: Symlink, Link, Remove, Stat and Lstat over a file system with inodes, hard and symbolic links and a limit on followed links (LinkSpec: the rules of path_resolution(7), the system calls symlink, link and unlink; environment, not code) | walks that succeed are kept by more links allowed, by new entries and by removed files; walks behind each other; Clean step by step along a walk without links |
| C223 | LoopModel: Fingerprint and Hash over the file system with links of LinkSpec; running out of fuel is explicit | the number of links left and the depth left decrease along the recursion; trees that show through links (LoopSpec) are finite, so none shows through a circle |
| C224 C225 | SubsModel.v (CollectSubs over the file system with links of LinkSpec.v) | induction on the depth of directories; the paths of entries with the lemmas of C223 |
| C226 C227 C228 C229 | ReflModel.v (reflect/reflect.go with Go types as kinds, names and pointers; math/bool.go) | case analysis on types; induction for pointers |
| C230 | RenModel.v (Rename over the file system with links; rename(2) in RenSpec.v) | the lemmas of C222 on adding and removing names |
| C231 C232 | WlinkModel.v (Walk and Statistic over the file system with links, with filepath.Walk of Go 1.8) | the tree that lstat shows is one of WalkSpec.v; the walk over links equals the walk of C218 on it |
| C233 | MvdirModel.v (Rename of anything over the file system with links; rename(2) of directories in MvdirSpec.v, with the refusal of existing directories by os.Rename of Go 1.8) | a walk that avoids the directory is found again afterwards; induction along the names inside; depths of directories |
| C234 | RmallModel.v (Remove and RemoveAll over the file system with links, with os.RemoveAll of Go 1.8; rmdir(2) in RmallSpec.v) | invariant of the loop over names: directories only lose entries, and a lost directory is empty; induction on depth |
| C235 | MkallModel.v (Mkdir and MkdirAll over the file system with links, with os.MkdirAll of Go 1.8; mkdir(2) in MkallSpec.v) | induction on the elements of the path; file systems that grow (lemmas of C221) |
| C236 | MvdirModel.v with LoopModel.v (Rename, then Fingerprint and Hash over the file system with links) | what is inside has the same entries (C233), so the trees that show are the same up to names; C223 and C54 do the rest |
| C237 | EvalModel.v (EvalSymlinks over the file system with links, with walkLink, walkLinks and walkSymlinks of Go 1.8) | rounds are bounded by the count of links; a round that counts no link has met none; with link texts that only go forward a round keeps the file and uses up the links it counts |
| C238 C239 C240 | CwdModel.v (Chdir, WorkPath, RelateWorkPath over the file system with links, with os.Getwd of Go 1.8; getcwd(2) is a parameter) | every walk from a directory below the root stays below it, so os.Getwd never fails; climbing from a directory along its names undoes the way down; cleaning keeps the file (C220) |
| C241 | `SeedModel` (as C154) | the call of one generator keeps the others and the one of the package (`SeedAlone`); the run with all calls simulates the run with the calls of one generator |
| C242 C243 | WrelModel.v (Relate, GoPath and RelateGoPath on Windows, with filepath.Rel of Go 1.8; strings.EqualFold is a parameter with four properties, WrelSpec.v) | the common elements are equal up to case; the rest is a relative text without volume, which keeps its meaning when it is cleaned |
| C244 C245 C246 C247 | WpartModel.v (Ext, SplitList, HasPrefix, RelateWorkPath on Windows, with path/filepath of Go 1.8; strings.ToLower and strings.EqualFold are parameters with the properties in WpartSpec.v and WrelSpec.v) | Ext by Ext on Unix of the text with slashes; every text is a listing, and the loops invert listings; the rest by C242 |
| C248 C249 | WmatchModel.v (filepath.Match of Go 1.8 on Windows, byte by byte: no escapes, the backslash is the separator) | as C210 and C211, over the grammar and meaning of WmatchSpec.v |

A property of the contract that the code violates has status "partial" in
`MANIFEST.json`: a `_partial` theorem for the inputs or histories on which it
holds, and a `_refuted` theorem with the counterexample.  In most such cases a
further property states what the code does instead, exactly, for all inputs
("exact behaviour"), with status "proved".

## 5. Assumptions reported by `Print Assumptions`

Every property theorem is "Closed under the global context", no axiom being used,
except those of C191, C192, C193 and C194 (conversions of durations to float64).  Their
proofs go through the real numbers (library Flocq) and use four axioms of the
standard library: `ClassicalDedekindReals.sig_not_dec`,
`ClassicalDedekindReals.sig_forall_dec`,
`FunctionalExtensionality.functional_extensionality_dep` and
`Classical_Prop.classic`.
`coqchk -o` lists seven constants of the standard library's module
`Coq.ssr.ssrunder` (`Under_rel` and its companions), which are opaque members of
a module type there; they come with the library files that are loaded and no
theorem depends on them.

## 6. Code not modelled

* Files without code or with empty bodies: `encoding/yaml`, `errors/handle.go`,
  `event`, `fmt`, `hash/robin.go`, `ipc`, `lang`, `log`, `net`, `os`,
  `pool`, `proto`, `rpc`, `script`, `sort`, `tasks`, `time/time_sys.go`,
  `time/time_snapshot.go`, `action`, `db`, `regexp`, `debug/log.go`,
  `math/big_int.go`, `stl/bit_set.go`, `stl/gp/bstree.gp.go` (stubs), the templates
  `avl_tree`, `map`, `multi_map`, `multi_set`, `priqueue`, `set`, `fibheaps`,
  `regable/gp`.
* Code whose effect is a matter of the runtime: `time/rdtsc.go` (cgo).  `convert` is empty.
* `fs`: the functions that only pass their arguments on to package `os`
  (Open, Chmod, Chtimes, …). Modelled with links: Stat, Lstat, Link, Symlink, Remove (LinkModel), Chdir, WorkPath, RelateWorkPath (CwdModel),
  Rename (RenModel, MvdirModel), Walk (WlinkModel), RemoveAll (RmallModel),
  Mkdir and MkdirAll (MkallModel), EvalSymlinks (EvalModel).
* Windows: of `fs` the functions FilePath, StringSys, SplitAll, Joins, VolumeName, Dir, Base,
  Rename and Move (WinModel), Relate, GoPath, RelateGoPath (WrelModel), Ext, SplitList, HasPrefix, RelateWorkPath (WpartModel) and Match (WmatchModel)
  are also modelled on Windows; all the others on Unix only.
