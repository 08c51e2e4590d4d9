# Formal model of chanjarster/gears in Rocq (Coq 8.16.1)

## Layout

`rocq/theories/`, one group of files per area of the code:

* `<Area>Model.v` - executable Gallina model, function by function; each definition cites the
  file and lines of `/repo` it models and says what is simplified. No proofs.
* `<Area>Spec.v` - the small specification the theorems are stated against (histories, counting,
  abstract machines). It does not mention the model's helper functions.
* `<Area>Proofs.v` - lemmas, invariants.
* `<Area>Props.v` - only the property theorems, each closed by `exact`, with `Print Assumptions`
  and, beside each, an `Example` showing a concrete non-trivial case that meets its hypotheses.

Areas: TokenBucket (mutex and atomic), FixedWindow, SlidingWindow, RedisTtl, Breaker, Sema, Bus,
Store (+ LoadPolicy, persister), Procs, ConfNames, ConfLoad, Schedule (+ task manager), Confs
(connection configs, TLS, pprof), Rsa, Sky, Json.

## Modelling conventions

* `int`/`int64` are `Z`; where arithmetic can wrap and it matters (rate limiters) the wrap to 64 bits
  is written into the model (`i64`), and theorems state the range they need.
* A Go map is an association list / finite function with the Go semantics of the operations used.
* Errors are values, nil is an explicit case, panics are an explicit outcome.
* Clocks are inputs: every call of a `nowFn`/`time.Now` is an explicit argument. Theorems quantify over
  all readings and state monotonicity where they need it.
* Concurrency: a component is a state machine whose steps are the atomic actions of the code (one
  atomic memory operation, one lock-protected region, one channel operation). A schedule is a list of
  labels; theorems quantify over all schedules and any number of goroutines.
* External systems (Redis, YAML decoder, PEM/X.509 parsing, tracer, URL unescaping) are either modelled
  explicitly as far as their contract is used (Redis lists/strings/TTL, base64, `strconv.Atoi`) or are
  universally quantified oracles in the theorem statement.
* If the code violates the natural property, `..._refuted` proves it with a concrete witness and the
  strongest true version is proved beside it.

## Plan per property

| id | model | proof |
|----|-------|-------|
| C01-C03 | `SyncTokenBucket.Acquire` as `state -> now -> state * bool` with int64 wrap | invariant tying tokens, grants and last refill time to elapsed seconds; induction over the history |
| C04 | atomic bucket run sequentially, micro-steps | simulation, step by step equality |
| C05-C06 | atomic bucket as a thread machine, one step per atomic operation | conservation invariant over all schedules; witness schedule for the refutation |
| C07-C10 | `SyncFixedWindow` with IEEE binary64 division/ceil (`SpecFloat`) | Flocq rounding lemma: exact for differences < 2^53; window counting invariant; witness by vm_compute |
| C11-C13 | `SyncSlidingWindow` with its record list | residue-class argument for arbitrary order; refinement to "remember every grant" spec |
| C14-C19 | both Lua scripts over a Redis model (lists, strings, expiry in ms) plus the Go wrappers | invariants over call histories; string lemmas for keys/hash tags |
| C20-C24 | breaker, sequential and as thread machine (consult / record) | refinement to three-state machine; ghost history invariant |
| C25-C29 | both semaphores as thread machines (blocked, waiting, notified) | invariants; refinement to a counter |
| C30-C38 | bus as thread machine: sender, dispatchers, closers, consumers, RW lock | invariants over schedules; deadlock witness |
| C39-C46 | store operations, persister as a hash, policies; small thread machine for C46 | refinement to map spec; invariants; witnesses |
| C47 | `DoLoad` with clock inputs and load outcomes | invariant |
| C48-C50 | `Atoi`, processors, regex match by substring scan | equivalence with a declarative grammar |
| C51-C52 | byte loops of `flagStyle`/`envStyle` | induction on strings |
| C53-C55 | reflect values as a tree with addresses; flag set bindings; yaml as a tree rewrite oracle | structural induction |
| C56-C61 | task status machine, goroutines of both task kinds as thread machines, manager map | invariants over schedules |
| C62-C66,C70 | config records to strings / native configs | non-interference by computation; witnesses |
| C67 | handler with base64 decoder | soundness/completeness lemma |
| C68 | string functions, PEM/X.509 as oracles | string lemmas |
| C69 | span actions as traces, handler as oracle | case analysis over all outcomes |
| C71 | records to native driver configs, address formatting | injectivity lemmas |
| C72 | `encoding/pem`, base64, DER parsers as oracles | string lemmas, search for blocks |
| C73-C74 | handler chains with and without middleware; reporter choice | simulation; witnesses |
| C75-C77 | `encoding/json` encoder and decoder on trees | grammar soundness/completeness, round trips |
| C78-C80 | decimal texts as rational numbers, float64 as mantissa and exponent | rational arithmetic, monotonicity of rounding |
| C81-C82 | `time.ParseDuration`, `Duration.String` with float64 arithmetic | error bounds, induction on the parts |
| C83-C85 | `strconv` parsers of package `flag`; instance of the loading model | grammar equivalence, reuse of C53 and C78 |
| C86-C87 | `net/url` request URIs, key processors over the PEM model | grammar equivalence |
| C88-C89 | the store with processors that may panic and locks that may stay locked | invariant, simulation by the store of C39-C46 |
| C92-C96 | several stores over one Redis hash as a machine: one step per lock operation, map access, Redis command, clock reading | lock invariant (who holds what) for races and progress, decreasing measure; for reads: a load that still has to come guards every read of the key |
| C97 | the machine of C92-C96, calls with one key | linearizability: every call takes effect at one instruction (the write, the HDEL, the check of a rejected value, the read); simulation of the calls one after the other, with the half-done Reset as the only difference |
| C98 | the machine of C92-C96 against the store of C39-C47 | running the program of one call alone is the sequential call: composition over the program, then over the loads and batches |
| C99 | the machine of C92-C96, HGETALLs counted along the schedule | invariant on who is where in a load (only the holder of the policy's lock); the k-th load is marked at least (k-1) d after the start |
| C100-C101 | methods of limiters and circuit breaker as code over fields, a lock and the clock; one step per field access, lock operation or clock reading | a discipline on code (fields of the object only under the lock, immutable ones anywhere, at most one critical section), checked for each method; invariant for all code that follows it: between lock and unlock the method runs as if alone, so it takes effect where it leaves its section |
| C102-C104 | the machine of C100-C101 | from C101 to the histories of C01-C13: the calls that start and return in a stretch take effect in it with readings from it; the bounds of C01/C02 and C11; for the fixed window a potential that drops with every grant |
| C105 | the store of C39-C47 with `noopPersister` | per-key state as a function of the calls so far; induction on the calls |
| C106 | the semaphore machines of C25-C29 | channel: the queue only shrinks at the front while a given goroutine is in it; lock: an infinite fair schedule with a period of five steps |
| C107 | the machine of C100-C101 | after a moment without calls the calls that take effect are at most the calls made, each with readings from then on; the bursts of C03, C11 and C08 |
| C108 | the thread machine of C20-C24, clock not going back | tasks let through in the stretch never exceed failures recorded in it plus tasks in progress |
| C109 | the thread machine of C05-C06, any state | a potential (changes of tokens still possible, confirmations still possible, operations until the next change) that every operation without a return lowers |
| C110 | the same machine, reachable states | until the first grant: tokens = tokens before + confirmed + pending refills, nothing is withdrawn before a confirmation; conservation of C06 for the lone caller |
| C111 | StoreNestModel: methods of processors as programs that call GetValue, GetValueString, UpdateNoPersist, ResetKey; locks as flags, nesting by fuel (more fuel never changes a result) | refinement to C88 for processors without calls; which calls keep which lock locked; induction on the nesting depth for endless loads |
| C112 | the persisters of StoreModel by themselves | simulation of the Redis hash by a map, over the calls that returned no error |
| C113 | RedisTtlModel, calls with changing parameters | the invariant of C15 with any list left over while nothing is counted yet; capacities that only grow never trim the list; a burst, a trim and a late call for the counterexample |
| C114 | SemaFineModel: one step per access, lock operation or part of Wait | forward simulation into the machine of C25-C29, whose step is taken at the write of the count, at the last read of a refusal, or at the Broadcast; a potential for the number of steps |
| C115 | ScheduleModel | the execution is cut at moments at which no step but time, calls and job returns is enabled; an invariant over one piece (runs asked for = ticks so far; the armed timer stays the same), then induction over the pieces |
| C116 | RedisLapseModel (RedisTtlModel with a history of store contents from which each key may be taken back) | what holds of each key after every call holds of every store of the history, so of every mixture of them; the invariant of C113 starts anew with a count of 0 at each loss; bursts with wipes in between reach the bound |
| C117 | BusFineModel: one step per access to the map, close and lock operation | forward simulation into the machine of C30-C37, which takes its step when the write lock is taken; closings and returns are seen later; the guarantees of C30-C37 are carried over the delay |
| C118 | ScheduleFineModel: one step per access to a field, lock operation, goroutine started and close | forward simulation into ScheduleModel, which takes the step of Start when the ticker is made (fixed rate) or the first run is handed over (fixed delay) and that of Stop when the stop channel is closed; returns are seen later; the guarantees of C56-C60 are carried over the delay |
| C119 | TaskSysModel: the manager's machine with a whole ScheduleModel machine for every task, one clock | invariant: every projection to a task is an execution of ScheduleModel, the rest is one of TaskMgrModel (its step of starting or stopping a task is taken when the call returns); progress by lifting the schedules of C56 |
| C120 | StoreCrashModel: the store of StorePanicModel with a persister whose methods may panic | step by step comparison with the same persister returning errors (`calm`); reads by induction on the keys; the nil persister by comparison with NoopPersister |
| C121 | RedisScriptModel: processes with two digest variables, servers with a script cache and the data of RedisLapseModel | invariant: variables and caches are determined by the LoadScripts and restarts so far; each server's calls are an execution of RedisLapseModel in which calls without script do not reach it |
| C122 | TestutilModel: helpers as functions of how the function under test ends | case analysis, induction on the helpers of a test |
| C123 | MysqlDsnModel: FormatDSN and ParseDSN of the driver, applied to what prepareMySqlNativeConfig makes | the text cut at its separators; each setting of the driver depends on the last parameter of its name |
| C124 | BreakerNestModel: several breakers, stacks of calls of Do, one step per field access and lock operation | simulation of the single-breaker model, one activation per call; stacks without duplicates; steps left as a measure |
| C125 | PgDsnModel: url.Parse, and ParseURL, parseOpts and NewConnector of the driver, applied to what buildPgDsn makes | the url's grammar (UrlSpec); settings written and scanned back one by one; sorting only permutes them; names are distinct |
| C126 | SkyTraceModel: the header sw8, CreateEntrySpan and CreateExitSpan of the tracer, trees of services | grammar of the header (base64 and decimals inverse to the encoders); induction over the tree of calls |
| C127 | YamlScalarModel: `resolve` and `decoder.scalar` of yaml.v3 for the eight kinds of fields | literals of the Go language with underscores removed; characters that occur in numbers; rounding and truncation in Q; the theorem about Load (C53) for the whole |
| C128 | YamlKeyModel: `getStructInfo` of yaml.v3: tags, lower case, inlined structs, errors | keys as an inductive relation on types and tags; paths of keys and entries of documents; the theorem about Load (C53) without its premise on keys |
| C129 | OraDsnModel: BuildUrl of the driver, applied to the options of prepareUrlOptions, and the reading of its connection string | the url's grammar (UrlSpec); options written and parsed back one by one; servers with ports as an inductive relation |
| C130 | SqlPoolModel: the pool of database/sql, set up as confs does it; one event per critical section | invariant on the counters: all connections are counted, waiting callers have connections on the way; a decreasing measure for executions without further callers |
| C131 | RedisPoolModel: the pool of go-redis v7, for versions that do and do not take counters back; one event per critical section | invariant on the counters and turns |
| C132 | HttpPoolModel: the connections of fasthttp's HostClient; one event per critical section | invariant on the counters; a second one for executions in which callers queue at once |
| C33, C38, C90-C91 | the bus with a waiting writer that holds back readers; fair schedules as infinite label sequences | simulation by the bus of C30-C37; decreasing measure; characterization of the states where nothing moves |

## Trusted base

* Coq 8.16.1's kernel (and `vm_compute` for concrete witnesses).
* The reading of the Go code in the `*Model.v` files. The code is never run; every definition cites the
  lines it models.
* The described semantics of Go primitives, of the parts of Go's standard library that are modelled
  (listed below) and of Redis.
* The axioms in "Assumptions".

### Assumptions (from `Print Assumptions`)

The theorems about the fixed window limiter that go through rounding of binary64 numbers use Flocq,
which rests on the standard library's real numbers. `fixed_window_exact`,
`fixed_window_per_window_bound`, `fixed_window_span_bound`, `fixed_window_fresh`,
`fixed_window_fresh_history` and `fixed_window_fresh_span_bound` (C07-C10) and
`fixed_window_rate_in_real_time` (C104), `fixed_window_callers_served` (C107) depend on

* `ClassicalDedekindReals.sig_not_dec`
* `ClassicalDedekindReals.sig_forall_dec`
* `FunctionalExtensionality.functional_extensionality_dep`
* `Classical_Prop.classic`

All of them are axioms of Coq's standard library. Every other theorem named in MANIFEST.json is
"Closed under the global context". There are no axioms of our own.

### What is modelled

| code | model | not modelled / simplified |
|------|-------|---------------------------|
| `ratelimiter/tokenbucket.go` | `TokenBucketModel.v`, `AtomicBucketModel.v` | `nowFn` is an input; sequentially consistent atomics |
| `ratelimiter/fixedwindow.go` | `FixedWindowModel.v`, `Float64Model.v` | float64 to int64 conversion out of range follows amd64 |
| `ratelimiter/slidingwindow.go` | `SlidingWindowModel.v` | |
| mutex limiters and circuit breaker under concurrency | `MonitorModel.v`, `LimiterConcModel.v` | one step is one field access, lock operation or clock reading; sequentially consistent memory (harmless without races, C100); `RWMutex` with a waiting writer that holds back readers; operands are read in one fixed order; `container/list` calls count as accesses to one field; all goroutines see one clock |
| `ratelimiter/ttl_ratelimiter*.go` and the Lua scripts | `RedisTtlModel.v`, `RedisLapseModel.v`, `RedisScriptModel.v` | a digest stands for its script, and LoadScript is not called during a call; a script is atomic and sees one clock reading; eviction, restart and failover only in `RedisLapseModel.v`, where each key is gone or has an earlier value afterwards; numbers below 2^53; `EXPIRE` does not overflow; lists hold what the limiters pushed; the hash slot is a function of the hashed part of a key |
| `circuitbreaker/circuitbreaker.go` | `BreakerModel.v`, `BreakerNestModel.v` | a reader is not held back by a waiting writer (more interleavings than Go has); that this makes no deadlock possible is `nested_writers_first` |
| `concurrent/sema.go` | `SemaModel.v`, `SemaFineModel.v` | Go's `sync.Mutex`/`Cond`/channels by their documented meaning; a critical section is one step in `SemaModel.v`, justified by C114; `Cond` as implemented (a notify list) in `SemaFineModel.v` |
| `event/bus.go` | `BusModel.v`, `BusLockModel.v`, `BusFineModel.v` | events are integers; writer preference of `RWMutex` is left out (more interleavings are allowed than Go has), it is added in `BusLockModel.v`, where all progress theorems are stated; there either a waiting reader or the next writer may go first when a writer unlocks; a critical section under the write lock is one step in these two models, justified by C117, where `BusFineModel.v` has one step per map access, close and lock operation; a panic in a client does not end the process |
| `confstore` store, loader, persister, policies | `StoreModel.v` | processors are total functions here (panicking ones: `StorePanicModel.v`, for calls one after the other); a `Load` that calls other store methods is not modelled (a nil persister: `StoreCrashModel.v`); the calls run one after the other except in C46; for concurrent calls see the next row |
| `confstore` under concurrency | `StoreConcModel.v` | several stores (processes) over one Redis hash; one step is one lock operation, one access to the maps, one Redis command (HGETALL, HSET and HDEL are atomic) or one clock reading; `RWMutex` with a waiting writer that holds back readers, either a waiting reader or the next writer may go first when a writer unlocks; processors are total functions that do not call the store |
| `confstore` preset processors | `ProcsModel.v` | `strconv`, `regexp` and `strings.Trim` are modelled directly, as far as used |
| `confstore` processors for URLs and RSA keys | `UrlModel.v` | `net/url.ParseRequestURI` is modelled directly (as in Go 1.13 to 1.23) except for the fields `RawPath` and `OmitHost`, which matter only for printing; `unescape` checks and decodes in one pass; error texts of `net/url` do not show; X.509 and PKCS contents as in `RsaModel.v` |
| `confstore` store with panicking processors | `StorePanicModel.v` | calls one after the other, each panic recovered from by the caller; a lock that stays locked is a flag, a call that needs it waits forever; processors that call the store are modelled in `StoreNestModel.v`; panicking persisters in `StoreCrashModel.v` |
| `confstore` store with processors that call it | `StoreNestModel.v` | one goroutine at a time, which waits for ever for a lock that it holds itself; a processor calls GetValue, GetValueString, UpdateNoPersist or ResetKey, not RegisterKey, DeregisterKey, or the methods built from these four |
| `conf` names | `ConfNamesModel.v` | ASCII behaviour of the byte loops |
| `conf` loading | `ConfLoadModel.v` | reflection on a memory of variables with pointers; text to value conversions (see the next row), the yaml scanner, yaml's conversion of scalars (see the row on scalars of the file) and the key of a yaml field (see the row on keys of the file) are inputs; yaml aliases, merge keys and custom unmarshalers are not modelled; decoding into unsupported types only writes the variable itself; the `flag` package as far as used |
| values of flags and env | `FlagValueModel.v` | `strconv.ParseBool`, `ParseInt`, `ParseUint` step by step, with 64 bits; the syntax of `ParseFloat` step by step, its rounding as documented (nearest float64) with exact rational numbers; int and uint have 64 bits |
| `schedule` tasks | `ScheduleModel.v`, `ScheduleFineModel.v` | a panicking job ends the process and is not modelled; the run counter does not wrap; `time.Ticker`, `AfterFunc` and `context` by their documented meaning; logging only as the event "job[#n] start"; whether a name is blank is an input; Start, Stop, getStatus and nextNo are one step each under the lock in `ScheduleModel.v` (Start of a fixed-delay task two), justified by C118, where `ScheduleFineModel.v` has one step per access |
| `schedule` task manager | `TaskMgrModel.v`, `TaskSysModel.v` | in `TaskMgrModel.v` a task is its name and its status (justified by C119) |
| `confs` MySQL, Oracle, PostgreSQL, Redis, Elasticsearch, HTTP client | `ConfsModel.v` | preparation of the native configs, not the connections; `fmt.Sprintf` for simple verbs; `net/url` query escaping; `strings.TrimSpace` on ASCII; files, key pairs, time zones are inputs (duration printing also, see `DurationModel.v`); a map is ranged over in any order; the Oracle url is built by the driver, see the row on the way to the driver |
| `confs` MySQL: the way to the driver | `MysqlDsnModel.v` | `FormatDSN` (for the fields set here, no customizer) and `ParseDSN` of go-sql-driver/mysql v1.6.0, written down from memory of its source, which is not in the repo; `net.SplitHostPort`; the sorted order of parameters is any order; time zones, `strconv.Atoi`, registered TLS configs and server keys are inputs and the same at writing and reading; `strings.ToLower` on ASCII; kinds of errors are not told apart; not the connection |
| `confs` PostgreSQL: the way to the driver | `PgDsnModel.v` | `ParseURL`, `parseOpts` and `NewConnector` of lib/pq v1.10.9, written down from memory of its source, which is not in the repo; `url.Parse` (with a scheme), `url.ParseQuery` (from Go 1.17 on; no difference for what is written here) and `net.SplitHostPort`; texts are bytes, white space is ASCII; the environment is what the driver's `parseEnviron` returned, the user of the operating system an input; kinds of errors are not told apart; not the dialling and the startup message |
| durations as text | `DurationModel.v` | `time.ParseDuration` step by step, with its float64 arithmetic, as in Go to 1.17 and from 1.18 on; `Duration.String`; the Duration processor of `confstore` |
| `confs/pprof.go` | `PprofModel.v` | `base64.StdEncoding` is modelled directly; `gin.BasicAuth` as in gin 1.7.7; the profiling handler itself is only "served" |
| `util/rsa` | `RsaModel.v` | `encoding/pem` is modelled directly (as in Go 1.14 to 1.19); parsing and marshalling of X.509 and PKCS contents are inputs |
| `dto/m.go` | `JsonModel.v`, `JsonFloatModel.v` | `encoding/json` (as in Go 1.15 to 1.21, with its limit of 10000 levels) is modelled directly for nil, bool, integers, float64, string, `[]byte`, `[]interface{}` and `map[string]interface{}`; structs, pointers, other element types and custom marshalers are not modelled; a nested `dto.M` comes back as `map[string]interface{}`; `strconv.ParseFloat` and `strconv.AppendFloat` are modelled by what they are documented to compute (nearest float64; shortest digits), with exact rational numbers, not by their algorithms; that `ParseFloat` stops adding digits to exponents from 10000 on is modelled |
| `skywalking` | `SkyModel.v` | whether the tracer creates a span is an input; the tracer itself is not modelled, only what it is told; `Context.Next`, `Context.Abort`, `Router.HandleRequest` of `qiangxue/fasthttp-routing` and the hook loops of `go-redis` v7 are modelled directly; handlers are programs over redis commands, client calls, responses, `Next` and `Abort`; clients and commands get the context of the request; the injected headers are in `SkyTraceModel.v` |
| `skywalking`: headers between services | `SkyTraceModel.v` | `CreateEntrySpan`, `CreateExitSpan`, `EncodeSW8` and `DecodeSW8` of go2sky v1.4.0, written down from memory of its source, which is not in the repo; generated names, the sampler and whether the tracer is registered are inputs; calls of a request happen one after the other, with the context of the handlers; the middleware is used once per request; correlation data are left out; span numbers do not wrap (theorems assume fewer than 2^31 - 1 calls per request) |
| `conf`: scalars of the file | `YamlScalarModel.v` | `resolve` and the method `scalar` of the decoder of gopkg.in/yaml.v3 (2021), written down from memory of its source, which is not in the repo; no tags, no `<<`; timestamps count as texts (they go into string fields only); int and uint have 64 bits; conversions of floats that do not fit follow amd64; in `yaml_load_values` a text occurs only quoted or only unquoted; syntax of YAML (lines, indentation, quotes) is not modelled |
| `conf`: keys of the file | `YamlKeyModel.v` | `getStructInfo` of gopkg.in/yaml.v3, written down from memory of its source, which is not in the repo; names of fields are ASCII; no inlined maps and no inlined types with an own UnmarshalYAML; the panic of the decoder for a type that is refused is not part of the model of Load |
| `confs` Oracle: the way to the driver | `OraDsnModel.v` | `BuildUrl` and the part of `newConnectionStringFromUrl` of go-ora v2 that takes user, password, first server, service, options and further servers from the url, written down from memory of its source, which is not in the repo; hosts are names, names of options are ASCII; what the driver does with the values of the options is not modelled |
| `confs`: pools of the SQL clients | `SqlPoolModel.v` | `SetMaxOpenConns`, `SetMaxIdleConns`, `conn`, `putConn`, `maybeOpenNewConnections`, `openNewConnection` and `finalClose` of database/sql, written down from memory of its source, which is not in the repo; connections are counted, not told apart; any connection may be too old at any time (ConnMaxLifetime is not computed); `DB.Close` is left out |
| `confs`: pool of the Redis client | `RedisPoolModel.v` | `Get`, `Put`, `Remove`, `CloseConn`, `newConn`, `popIdle`, `checkMinIdleConns`, `addIdleConn` and `ReapStaleConns` of the pool of go-redis v7, written down from memory of its source, which is not in the repo; what differs between its versions in `addIdleConn` is a parameter; connections are counted, not told apart; any idle connection may be stale at any time; `Close` and `Conn()` are left out |
| `confs`: connections of the HTTP client | `HttpPoolModel.v` | `acquireConn`, `queueForIdle`, `dialConnFor`, `decConnsCount`, `releaseConn`, `closeConn` and `connsCleaner` of HostClient in fasthttp, written down from memory of its source, which is not in the repo; connections are counted, not told apart; any idle connection may be too old at any time; callers that time out leave the queue at once; MaxConnDuration, retries and pipelining are left out |
| `testutil` | `TestutilModel.v` | `%v` and `reflect.DeepEqual` on values other than nil are inputs |

## How to read seeded/LOG.jsonl

Each line is one wrong version of a model definition, tried in a scratch copy.
`lemmas_failed` names the statements whose proof script no longer goes through.
`theorems_failed` and `examples_failed` name the theorems and examples whose proof depends on one of those.
A theorem listed there has lost its proof; it need not be false of the wrong version, because a script can also break on a
changed definition of which the statement still holds, and a broken shared lemma takes all theorems that use it along.
A line with no failed theorem is a wrong version that the theorems do not notice; some of these are equivalent to the
model, the others are named in `theorems_tightened` when a theorem was strengthened afterwards.
