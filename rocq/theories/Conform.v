(** The model run on the proto files of the repository.

    These are tests of the model, not proofs about all inputs: they compare the
    whole of pb-rs as modelled - command line, parser, imports, passes, writer,
    disk - with what the repository says that pb-rs does.

    - generate_modules.sh makes the files of quick-protobuf/examples, which are in
      the repository.  The model makes the same files, character by character,
      but for two mod.rs files: there the repository has the same lines in
      alphabetical order (rustfmt orders them).
    - quick-protobuf/tests/rust_protobuf/generate.sh runs pb-rs on each file of
      two directories, and says which of them must fail.  In the model exactly
      those fail.  The texts of all the others are read by the parser of Rust of
      [RustParse.v], and their schemas meet the condition of C78.

    The texts of the files are copied from /repo.  Each test is a computed boolean
    and a [Check] that it is [true]; no proof is kept of it, because checking it
    again without the virtual machine takes too long. *)
From Coq Require Import String Ascii Arith ZArith Bool.
From Verif Require Import Props_EndToEnd Props_Safety Props_Paths Props_Passes Props_Accepted Props_Generated Props_Defaults Props_TypeCheck Props_Literals Props_Text.
From Verif Require Import Base Schema Passes Parser Import Paths Output OutputFacts Props_Output GenText RustLex RustAst RustParse GenAst GenGood Reader Writer RustTypes Emit RustSem Meaning MeanNames Props_Run Props_Meaning Cycles GenCheck GenSem Gen Spec.
Import Schema StringSyntax.
Local Open Scope string_scope.
Local Open Scope list_scope.

(** a run on a disk with these directories and files ends well and leaves these files *)
Definition makes (o : options) (dirs : list text) (files outputs : list (text * text)) : bool :=
  match cli text_of true 5 o (small_disk dirs files) with
  | (inl WOk, d) => forallb (fun x => match dk_file d (path_of (fst x)) with Some s => String.eqb s (snd x) | None => false end) outputs
  | _ => false
  end.

(** ** quick-protobuf/examples/pb_rs: [pb-rs -I D -d D D/*.proto] *)

(** quick-protobuf/examples/pb_rs/data_types.proto *)
Definition two_data_types_proto : text := "import ""data_types_import.proto"";

enum FooEnum {
    FIRST_VALUE = 1;
    SECOND_VALUE = 2;
}
    
message BarMessage {
    required int32 b_required_int32 = 1;
}

message FooMessage {
    optional int32 f_int32 = 1;
    optional int64 f_int64 = 2;
    optional uint32 f_uint32 = 3;
    optional uint64 f_uint64 = 4;
    optional sint32 f_sint32 = 5;
    optional sint64 f_sint64 = 6 [default=4];
    optional bool f_bool = 7 [default=true];
    optional FooEnum f_FooEnum = 8;
    optional fixed64 f_fixed64 = 9;
    optional sfixed64 f_sfixed64 = 10;
    optional fixed32 f_fixed32 = 11 [default=0];
    optional sfixed32 f_sfixed32 = 12;
    optional double f_double = 13;
    optional float f_float = 14;
    optional bytes f_bytes = 15;
    optional string f_string = 16;
    optional FooMessage f_self_message = 17;
    optional BarMessage f_bar_message = 18;
    repeated int32 f_repeated_int32 = 19;
    repeated int32 f_repeated_packed_int32 = 20 [ packed = true ];
    repeated float f_repeated_packed_float = 21 [ packed = true ];
    optional a.b.ImportedMessage f_imported = 22;
    optional BazMessage f_baz = 23;
    optional BazMessage.Nested f_nested = 24;
    optional BazMessage.Nested.NestedEnum f_nested_enum = 25;
    map<string, int32> f_map = 26;
    oneof test_oneof {
        int32 f1 = 27;
        bool f2 = 28;
        string f3 = 29;
    }
}

message BazMessage {
    message Nested {
        message NestedMessage {
            required int32 f_nested = 1;
        }
        enum NestedEnum {
            Foo = 0;
            Bar = 1;
            Baz = 2;
        }
        required NestedMessage f_nested = 1;
    }
    optional Nested nested = 1;
}

".
(** quick-protobuf/examples/pb_rs/data_types_import.proto *)
Definition two_data_types_import_proto : text := "package a.b;

message ImportedMessage {
    optional bool i = 1;
}
".
(** quick-protobuf/examples/pb_rs/data_types_unit.proto *)
Definition two_data_types_unit_proto : text := "message unit_message { }

enum test {
    a = 10;
}
".
(** quick-protobuf/examples/pb_rs/data_types.rs *)
Definition two_data_types_rs : text := "// Automatically generated rust module for 'data_types.proto' file

#![allow(non_snake_case)]
#![allow(non_upper_case_globals)]
#![allow(non_camel_case_types)]
#![allow(unused_imports)]
#![allow(unknown_lints)]
#![allow(clippy::all)]
#![cfg_attr(rustfmt, rustfmt_skip)]


use std::borrow::Cow;
use std::collections::HashMap;
type KVMap<K, V> = HashMap<K, V>;
use quick_protobuf::{MessageInfo, MessageRead, MessageWrite, BytesReader, Writer, WriterBackend, Result, PackedFixed, PackedFixedIntoIter, PackedFixedRefIter};
use quick_protobuf::sizeofs::*;
use super::*;

#[derive(Debug, PartialEq, Eq, Clone, Copy)]
pub enum FooEnum {
    FIRST_VALUE = 1,
    SECOND_VALUE = 2,
}

impl Default for FooEnum {
    fn default() -> Self {
        FooEnum::FIRST_VALUE
    }
}

impl From<i32> for FooEnum {
    fn from(i: i32) -> Self {
        match i {
            1 => FooEnum::FIRST_VALUE,
            2 => FooEnum::SECOND_VALUE,
            _ => Self::default(),
        }
    }
}

impl<'a> From<&'a str> for FooEnum {
    fn from(s: &'a str) -> Self {
        match s {
            ""FIRST_VALUE"" => FooEnum::FIRST_VALUE,
            ""SECOND_VALUE"" => FooEnum::SECOND_VALUE,
            _ => Self::default(),
        }
    }
}

#[allow(clippy::derive_partial_eq_without_eq)]
#[derive(Default, Debug, PartialEq, Clone)]
pub struct BarMessage {
    pub b_required_int32: i32,
}

impl<'a> MessageRead<'a> for BarMessage {
    fn from_reader(r: &mut BytesReader, bytes: &'a [u8]) -> Result<Self> {
        let mut msg = Self::default();
        while !r.is_eof() {
            match r.next_tag(bytes) {
                Ok(8) => msg.b_required_int32 = r.read_int32(bytes)?,
                Ok(t) => { r.read_unknown(bytes, t)?; }
                Err(e) => return Err(e),
            }
        }
        Ok(msg)
    }
}

impl MessageWrite for BarMessage {
    fn get_size(&self) -> usize {
        0
        + 1 + sizeof_varint(*(&self.b_required_int32) as u64)
    }

    fn write_message<W: WriterBackend>(&self, w: &mut Writer<W>) -> Result<()> {
        w.write_with_tag(8, |w| w.write_int32(*&self.b_required_int32))?;
        Ok(())
    }
}

#[allow(clippy::derive_partial_eq_without_eq)]
#[derive(Default, Debug, PartialEq, Clone)]
pub struct FooMessage<'a> {
    pub f_int32: Option<i32>,
    pub f_int64: Option<i64>,
    pub f_uint32: Option<u32>,
    pub f_uint64: Option<u64>,
    pub f_sint32: Option<i32>,
    pub f_sint64: Option<i64>,
    pub f_bool: Option<bool>,
    pub f_FooEnum: Option<FooEnum>,
    pub f_fixed64: Option<u64>,
    pub f_sfixed64: Option<i64>,
    pub f_fixed32: Option<u32>,
    pub f_sfixed32: Option<i32>,
    pub f_double: Option<f64>,
    pub f_float: Option<f32>,
    pub f_bytes: Option<Cow<'a, [u8]>>,
    pub f_string: Option<Cow<'a, str>>,
    pub f_self_message: Option<Box<FooMessage<'a>>>,
    pub f_bar_message: Option<BarMessage>,
    pub f_repeated_int32: Vec<i32>,
    pub f_repeated_packed_int32: Vec<i32>,
    pub f_repeated_packed_float: PackedFixed<'a, f32>,
    pub f_imported: Option<a::b::ImportedMessage>,
    pub f_baz: Option<BazMessage>,
    pub f_nested: Option<mod_BazMessage::Nested>,
    pub f_nested_enum: Option<mod_BazMessage::mod_Nested::NestedEnum>,
    pub f_map: KVMap<Cow<'a, str>, i32>,
    pub test_oneof: mod_FooMessage::OneOftest_oneof<'a>,
}

impl<'a> FooMessage<'a> {
    pub const DEFAULT_f_sint64: i64 = 4i64;
    pub const DEFAULT_f_bool: bool = true;
    pub const DEFAULT_f_fixed32: u32 = 0u32;
}


impl<'a> MessageRead<'a> for FooMessage<'a> {
    fn from_reader(r: &mut BytesReader, bytes: &'a [u8]) -> Result<Self> {
        let mut msg = Self::default();
        while !r.is_eof() {
            match r.next_tag(bytes) {
                Ok(8) => msg.f_int32 = Some(r.read_int32(bytes)?),
                Ok(16) => msg.f_int64 = Some(r.read_int64(bytes)?),
                Ok(24) => msg.f_uint32 = Some(r.read_uint32(bytes)?),
                Ok(32) => msg.f_uint64 = Some(r.read_uint64(bytes)?),
                Ok(40) => msg.f_sint32 = Some(r.read_sint32(bytes)?),
                Ok(48) => msg.f_sint64 = Some(r.read_sint64(bytes)?),
                Ok(56) => msg.f_bool = Some(r.read_bool(bytes)?),
                Ok(64) => msg.f_FooEnum = Some(r.read_enum(bytes)?),
                Ok(73) => msg.f_fixed64 = Some(r.read_fixed64(bytes)?),
                Ok(81) => msg.f_sfixed64 = Some(r.read_sfixed64(bytes)?),
                Ok(93) => msg.f_fixed32 = Some(r.read_fixed32(bytes)?),
                Ok(101) => msg.f_sfixed32 = Some(r.read_sfixed32(bytes)?),
                Ok(105) => msg.f_double = Some(r.read_double(bytes)?),
                Ok(117) => msg.f_float = Some(r.read_float(bytes)?),
                Ok(122) => msg.f_bytes = Some(r.read_bytes(bytes).map(Cow::Borrowed)?),
                Ok(130) => msg.f_string = Some(r.read_string(bytes).map(Cow::Borrowed)?),
                Ok(138) => msg.f_self_message = Some(Box::new(r.read_message::<FooMessage>(bytes)?)),
                Ok(146) => msg.f_bar_message = Some(r.read_message::<BarMessage>(bytes)?),
                Ok(152) => msg.f_repeated_int32.push(r.read_int32(bytes)?),
                Ok(162) => msg.f_repeated_packed_int32 = r.read_packed(bytes, |r, bytes| Ok(r.read_int32(bytes)?))?,
                Ok(170) => msg.f_repeated_packed_float = r.read_packed_fixed(bytes)?,
                Ok(178) => msg.f_imported = Some(r.read_message::<a::b::ImportedMessage>(bytes)?),
                Ok(186) => msg.f_baz = Some(r.read_message::<BazMessage>(bytes)?),
                Ok(194) => msg.f_nested = Some(r.read_message::<mod_BazMessage::Nested>(bytes)?),
                Ok(200) => msg.f_nested_enum = Some(r.read_enum(bytes)?),
                Ok(210) => {
                    let (key, value) = r.read_map(bytes, |r, bytes| Ok(r.read_string(bytes).map(Cow::Borrowed)?), |r, bytes| Ok(r.read_int32(bytes)?))?;
                    msg.f_map.insert(key, value);
                }
                Ok(216) => msg.test_oneof = mod_FooMessage::OneOftest_oneof::f1(r.read_int32(bytes)?),
                Ok(224) => msg.test_oneof = mod_FooMessage::OneOftest_oneof::f2(r.read_bool(bytes)?),
                Ok(234) => msg.test_oneof = mod_FooMessage::OneOftest_oneof::f3(r.read_string(bytes).map(Cow::Borrowed)?),
                Ok(t) => { r.read_unknown(bytes, t)?; }
                Err(e) => return Err(e),
            }
        }
        Ok(msg)
    }
}

impl<'a> MessageWrite for FooMessage<'a> {
    fn get_size(&self) -> usize {
        0
        + self.f_int32.as_ref().map_or(0, |&m| 1 + sizeof_varint(*(&m) as u64))
        + self.f_int64.as_ref().map_or(0, |&m| 1 + sizeof_varint(*(&m) as u64))
        + self.f_uint32.as_ref().map_or(0, |&m| 1 + sizeof_varint(*(&m) as u64))
        + self.f_uint64.as_ref().map_or(0, |&m| 1 + sizeof_varint(*(&m) as u64))
        + self.f_sint32.as_ref().map_or(0, |&m| 1 + sizeof_sint32(*(&m)))
        + self.f_sint64.as_ref().map_or(0, |&m| 1 + sizeof_sint64(*(&m)))
        + self.f_bool.as_ref().map_or(0, |&m| 1 + sizeof_varint(*(&m) as u64))
        + self.f_FooEnum.as_ref().map_or(0, |&m| 1 + sizeof_varint(*(&m) as u64))
        + self.f_fixed64.as_ref().map_or(0, |&m| 1 + 8)
        + self.f_sfixed64.as_ref().map_or(0, |&m| 1 + 8)
        + self.f_fixed32.as_ref().map_or(0, |&m| 1 + 4)
        + self.f_sfixed32.as_ref().map_or(0, |&m| 1 + 4)
        + self.f_double.as_ref().map_or(0, |&m| 1 + 8)
        + self.f_float.as_ref().map_or(0, |&m| 1 + 4)
        + self.f_bytes.as_ref().map_or(0, |m| 1 + sizeof_len((&m).len()))
        + self.f_string.as_ref().map_or(0, |m| 2 + sizeof_len((&m).len()))
        + self.f_self_message.as_ref().map_or(0, |m| 2 + sizeof_len((m).get_size()))
        + self.f_bar_message.as_ref().map_or(0, |m| 2 + sizeof_len((m).get_size()))
        + self.f_repeated_int32.iter().map(|&s| 2 + sizeof_varint(*(&s) as u64)).sum::<usize>()
        + if self.f_repeated_packed_int32.is_empty() { 0 } else { 2 + sizeof_len(self.f_repeated_packed_int32.iter().map(|&s| sizeof_varint(*(&s) as u64)).sum::<usize>()) }
        + if self.f_repeated_packed_float.is_empty() { 0 } else { 2 + sizeof_len(self.f_repeated_packed_float.len() * 4) }
        + self.f_imported.as_ref().map_or(0, |m| 2 + sizeof_len((m).get_size()))
        + self.f_baz.as_ref().map_or(0, |m| 2 + sizeof_len((m).get_size()))
        + self.f_nested.as_ref().map_or(0, |m| 2 + sizeof_len((m).get_size()))
        + self.f_nested_enum.as_ref().map_or(0, |&m| 2 + sizeof_varint(*(&m) as u64))
        + self.f_map.iter().map(|(k, &v)| 2 + sizeof_len(2 + sizeof_len((&k).len()) + sizeof_varint(*(&v) as u64))).sum::<usize>()
        + match &self.test_oneof {
            mod_FooMessage::OneOftest_oneof::f1(m) => 2 + sizeof_varint(*(&*m) as u64),
            mod_FooMessage::OneOftest_oneof::f2(m) => 2 + sizeof_varint(*(&*m) as u64),
            mod_FooMessage::OneOftest_oneof::f3(ref m) => 2 + sizeof_len((&m).len()),
            mod_FooMessage::OneOftest_oneof::None => 0,
        }
    }

    fn write_message<W: WriterBackend>(&self, w: &mut Writer<W>) -> Result<()> {
        self.f_int32.as_ref().map_or(Ok(()), |&m| w.write_with_tag(8, |w| w.write_int32(*&m)))?;
        self.f_int64.as_ref().map_or(Ok(()), |&m| w.write_with_tag(16, |w| w.write_int64(*&m)))?;
        self.f_uint32.as_ref().map_or(Ok(()), |&m| w.write_with_tag(24, |w| w.write_uint32(*&m)))?;
        self.f_uint64.as_ref().map_or(Ok(()), |&m| w.write_with_tag(32, |w| w.write_uint64(*&m)))?;
        self.f_sint32.as_ref().map_or(Ok(()), |&m| w.write_with_tag(40, |w| w.write_sint32(*&m)))?;
        self.f_sint64.as_ref().map_or(Ok(()), |&m| w.write_with_tag(48, |w| w.write_sint64(*&m)))?;
        self.f_bool.as_ref().map_or(Ok(()), |&m| w.write_with_tag(56, |w| w.write_bool(*&m)))?;
        self.f_FooEnum.as_ref().map_or(Ok(()), |&m| w.write_with_tag(64, |w| w.write_enum(*&m as i32)))?;
        self.f_fixed64.as_ref().map_or(Ok(()), |&m| w.write_with_tag(73, |w| w.write_fixed64(*&m)))?;
        self.f_sfixed64.as_ref().map_or(Ok(()), |&m| w.write_with_tag(81, |w| w.write_sfixed64(*&m)))?;
        self.f_fixed32.as_ref().map_or(Ok(()), |&m| w.write_with_tag(93, |w| w.write_fixed32(*&m)))?;
        self.f_sfixed32.as_ref().map_or(Ok(()), |&m| w.write_with_tag(101, |w| w.write_sfixed32(*&m)))?;
        self.f_double.as_ref().map_or(Ok(()), |&m| w.write_with_tag(105, |w| w.write_double(*&m)))?;
        self.f_float.as_ref().map_or(Ok(()), |&m| w.write_with_tag(117, |w| w.write_float(*&m)))?;
        self.f_bytes.as_ref().map_or(Ok(()), |m| w.write_with_tag(122, |w| w.write_bytes(&m)))?;
        self.f_string.as_ref().map_or(Ok(()), |m| w.write_with_tag(130, |w| w.write_string(&m)))?;
        self.f_self_message.as_ref().map_or(Ok(()), |m| w.write_with_tag(138, |w| w.write_message(&*(*(m)))))?;
        self.f_bar_message.as_ref().map_or(Ok(()), |m| w.write_with_tag(146, |w| w.write_message(m)))?;
        for s in &self.f_repeated_int32 { w.write_with_tag(152, |w| w.write_int32(*&*s))?; }
        w.write_packed_with_tag(162, &self.f_repeated_packed_int32, |w, &m| w.write_int32(*&m), &|&m| sizeof_varint(*(&m) as u64))?;
        w.write_packed_fixed_with_tag(170, &self.f_repeated_packed_float)?;
        self.f_imported.as_ref().map_or(Ok(()), |m| w.write_with_tag(178, |w| w.write_message(m)))?;
        self.f_baz.as_ref().map_or(Ok(()), |m| w.write_with_tag(186, |w| w.write_message(m)))?;
        self.f_nested.as_ref().map_or(Ok(()), |m| w.write_with_tag(194, |w| w.write_message(m)))?;
        self.f_nested_enum.as_ref().map_or(Ok(()), |&m| w.write_with_tag(200, |w| w.write_enum(*&m as i32)))?;
        for (k, &v) in self.f_map.iter() { w.write_with_tag(210, |w| w.write_map(2 + sizeof_len((&k).len()) + sizeof_varint(*(&v) as u64), 10, |w| w.write_string(k), 16, |w| w.write_int32(*&v)))?; }
        match &self.test_oneof {
            mod_FooMessage::OneOftest_oneof::f1(m) => { w.write_with_tag(216, |w| w.write_int32(*&*m))? },
            mod_FooMessage::OneOftest_oneof::f2(m) => { w.write_with_tag(224, |w| w.write_bool(*&*m))? },
            mod_FooMessage::OneOftest_oneof::f3(m) => { w.write_with_tag(234, |w| w.write_string(m))? },
            mod_FooMessage::OneOftest_oneof::None => {},
        }
        Ok(())
    }
}

pub mod mod_FooMessage {

use super::*;

#[derive(Debug, PartialEq, Clone)]
pub enum OneOftest_oneof<'a> {
    f1(i32),
    f2(bool),
    f3(Cow<'a, str>),
    None,
}

impl<'a> Default for OneOftest_oneof<'a> {
    fn default() -> Self {
        OneOftest_oneof::None
    }
}

}

#[allow(clippy::derive_partial_eq_without_eq)]
#[derive(Default, Debug, PartialEq, Clone)]
pub struct BazMessage {
    pub nested: Option<mod_BazMessage::Nested>,
}

impl<'a> MessageRead<'a> for BazMessage {
    fn from_reader(r: &mut BytesReader, bytes: &'a [u8]) -> Result<Self> {
        let mut msg = Self::default();
        while !r.is_eof() {
            match r.next_tag(bytes) {
                Ok(10) => msg.nested = Some(r.read_message::<mod_BazMessage::Nested>(bytes)?),
                Ok(t) => { r.read_unknown(bytes, t)?; }
                Err(e) => return Err(e),
            }
        }
        Ok(msg)
    }
}

impl MessageWrite for BazMessage {
    fn get_size(&self) -> usize {
        0
        + self.nested.as_ref().map_or(0, |m| 1 + sizeof_len((m).get_size()))
    }

    fn write_message<W: WriterBackend>(&self, w: &mut Writer<W>) -> Result<()> {
        self.nested.as_ref().map_or(Ok(()), |m| w.write_with_tag(10, |w| w.write_message(m)))?;
        Ok(())
    }
}

pub mod mod_BazMessage {

use super::*;

#[allow(clippy::derive_partial_eq_without_eq)]
#[derive(Default, Debug, PartialEq, Clone)]
pub struct Nested {
    pub f_nested: mod_BazMessage::mod_Nested::NestedMessage,
}

impl<'a> MessageRead<'a> for Nested {
    fn from_reader(r: &mut BytesReader, bytes: &'a [u8]) -> Result<Self> {
        let mut msg = Self::default();
        while !r.is_eof() {
            match r.next_tag(bytes) {
                Ok(10) => msg.f_nested = r.read_message::<mod_BazMessage::mod_Nested::NestedMessage>(bytes)?,
                Ok(t) => { r.read_unknown(bytes, t)?; }
                Err(e) => return Err(e),
            }
        }
        Ok(msg)
    }
}

impl MessageWrite for Nested {
    fn get_size(&self) -> usize {
        0
        + 1 + sizeof_len((self.f_nested).get_size())
    }

    fn write_message<W: WriterBackend>(&self, w: &mut Writer<W>) -> Result<()> {
        w.write_with_tag(10, |w| w.write_message(&self.f_nested))?;
        Ok(())
    }
}

pub mod mod_Nested {

use super::*;

#[allow(clippy::derive_partial_eq_without_eq)]
#[derive(Default, Debug, PartialEq, Clone)]
pub struct NestedMessage {
    pub f_nested: i32,
}

impl<'a> MessageRead<'a> for NestedMessage {
    fn from_reader(r: &mut BytesReader, bytes: &'a [u8]) -> Result<Self> {
        let mut msg = Self::default();
        while !r.is_eof() {
            match r.next_tag(bytes) {
                Ok(8) => msg.f_nested = r.read_int32(bytes)?,
                Ok(t) => { r.read_unknown(bytes, t)?; }
                Err(e) => return Err(e),
            }
        }
        Ok(msg)
    }
}

impl MessageWrite for NestedMessage {
    fn get_size(&self) -> usize {
        0
        + 1 + sizeof_varint(*(&self.f_nested) as u64)
    }

    fn write_message<W: WriterBackend>(&self, w: &mut Writer<W>) -> Result<()> {
        w.write_with_tag(8, |w| w.write_int32(*&self.f_nested))?;
        Ok(())
    }
}

#[derive(Debug, PartialEq, Eq, Clone, Copy)]
pub enum NestedEnum {
    Foo = 0,
    Bar = 1,
    Baz = 2,
}

impl Default for NestedEnum {
    fn default() -> Self {
        NestedEnum::Foo
    }
}

impl From<i32> for NestedEnum {
    fn from(i: i32) -> Self {
        match i {
            0 => NestedEnum::Foo,
            1 => NestedEnum::Bar,
            2 => NestedEnum::Baz,
            _ => Self::default(),
        }
    }
}

impl<'a> From<&'a str> for NestedEnum {
    fn from(s: &'a str) -> Self {
        match s {
            ""Foo"" => NestedEnum::Foo,
            ""Bar"" => NestedEnum::Bar,
            ""Baz"" => NestedEnum::Baz,
            _ => Self::default(),
        }
    }
}

}

}

".
(** quick-protobuf/examples/pb_rs/data_types_unit.rs *)
Definition two_data_types_unit_rs : text := "// Automatically generated rust module for 'data_types_unit.proto' file

#![allow(non_snake_case)]
#![allow(non_upper_case_globals)]
#![allow(non_camel_case_types)]
#![allow(unused_imports)]
#![allow(unknown_lints)]
#![allow(clippy::all)]
#![cfg_attr(rustfmt, rustfmt_skip)]


use quick_protobuf::{BytesReader, Result, MessageInfo, MessageRead, MessageWrite};
use super::*;

#[derive(Debug, PartialEq, Eq, Clone, Copy)]
pub enum test {
    a = 10,
}

impl Default for test {
    fn default() -> Self {
        test::a
    }
}

impl From<i32> for test {
    fn from(i: i32) -> Self {
        match i {
            10 => test::a,
            _ => Self::default(),
        }
    }
}

impl<'a> From<&'a str> for test {
    fn from(s: &'a str) -> Self {
        match s {
            ""a"" => test::a,
            _ => Self::default(),
        }
    }
}

#[allow(clippy::derive_partial_eq_without_eq)]
#[derive(Default, Debug, PartialEq, Clone)]
pub struct unit_message { }

impl<'a> MessageRead<'a> for unit_message {
    fn from_reader(r: &mut BytesReader, _: &[u8]) -> Result<Self> {
        r.read_to_end();
        Ok(Self::default())
    }
}

impl MessageWrite for unit_message { }

".
(** quick-protobuf/examples/pb_rs/a/b.rs *)
Definition two_a_b_rs : text := "// Automatically generated rust module for 'data_types_import.proto' file

#![allow(non_snake_case)]
#![allow(non_upper_case_globals)]
#![allow(non_camel_case_types)]
#![allow(unused_imports)]
#![allow(unknown_lints)]
#![allow(clippy::all)]
#![cfg_attr(rustfmt, rustfmt_skip)]


use quick_protobuf::{MessageInfo, MessageRead, MessageWrite, BytesReader, Writer, WriterBackend, Result, PackedFixed, PackedFixedIntoIter, PackedFixedRefIter};
use quick_protobuf::sizeofs::*;
use super::super::*;

#[allow(clippy::derive_partial_eq_without_eq)]
#[derive(Default, Debug, PartialEq, Clone)]
pub struct ImportedMessage {
    pub i: Option<bool>,
}

impl<'a> MessageRead<'a> for ImportedMessage {
    fn from_reader(r: &mut BytesReader, bytes: &'a [u8]) -> Result<Self> {
        let mut msg = Self::default();
        while !r.is_eof() {
            match r.next_tag(bytes) {
                Ok(8) => msg.i = Some(r.read_bool(bytes)?),
                Ok(t) => { r.read_unknown(bytes, t)?; }
                Err(e) => return Err(e),
            }
        }
        Ok(msg)
    }
}

impl MessageWrite for ImportedMessage {
    fn get_size(&self) -> usize {
        0
        + self.i.as_ref().map_or(0, |&m| 1 + sizeof_varint(*(&m) as u64))
    }

    fn write_message<W: WriterBackend>(&self, w: &mut Writer<W>) -> Result<()> {
        self.i.as_ref().map_or(Ok(()), |&m| w.write_with_tag(8, |w| w.write_bool(*&m)))?;
        Ok(())
    }
}

".
(** quick-protobuf/examples/pb_rs/a/mod.rs *)
Definition two_a_mod_rs : text := "// Automatically generated mod.rs
pub mod b;
".
Definition conform_two : bool := Eval vm_compute in makes
  (mkOptions ["quick-protobuf/examples/pb_rs/data_types.proto"; "quick-protobuf/examples/pb_rs/data_types_import.proto"; "quick-protobuf/examples/pb_rs/data_types_unit.proto"] None (Some "quick-protobuf/examples/pb_rs") ["quick-protobuf/examples/pb_rs"]
     false false false false None None false false false false false false false)
  ["quick-protobuf"; "quick-protobuf/examples"; "quick-protobuf/examples/pb_rs"]
  [("quick-protobuf/examples/pb_rs/data_types.proto", two_data_types_proto);
   ("quick-protobuf/examples/pb_rs/data_types_import.proto", two_data_types_import_proto);
   ("quick-protobuf/examples/pb_rs/data_types_unit.proto", two_data_types_unit_proto)]
  [("quick-protobuf/examples/pb_rs/data_types.rs", two_data_types_rs);
   ("quick-protobuf/examples/pb_rs/data_types_unit.rs", two_data_types_unit_rs);
   ("quick-protobuf/examples/pb_rs/a/b.rs", two_a_b_rs);
   ("quick-protobuf/examples/pb_rs/a/mod.rs", two_a_mod_rs)].
Check eq_refl : conform_two = true.

(** ** quick-protobuf/examples/pb_rs_v3: [pb-rs -I D -d D D/*.proto] *)

(** quick-protobuf/examples/pb_rs_v3/data_types.proto *)
Definition three_data_types_proto : text := "syntax = ""proto3"";

import ""data_types_import.proto"";

enum FooEnum {
    FIRST_VALUE = 1;
    SECOND_VALUE = 2;
}
    
message BarMessage {
    int32 b_int32 = 1;
}

message FooMessage {
    int32 f_int32 = 1;
    int64 f_int64 = 2;
    uint32 f_uint32 = 3;
    uint64 f_uint64 = 4;
    sint32 f_sint32 = 5;
    sint64 f_sint64 = 6 [default=4];
    bool f_bool = 7 [default=true];
    FooEnum f_FooEnum = 8;
    fixed64 f_fixed64 = 9;
    sfixed64 f_sfixed64 = 10;
    fixed32 f_fixed32 = 11 [default=0];
    sfixed32 f_sfixed32 = 12;
    double f_double = 13;
    float f_float = 14;
    bytes f_bytes = 15;
    string f_string = 16;
    FooMessage f_self_message = 17;
    BarMessage f_bar_message = 18;
    repeated int32 f_repeated_int32 = 19;
    repeated int32 f_repeated_packed_int32 = 20 [ packed = true ];
    repeated float f_repeated_packed_float = 21 [ packed = true ];
    a.b.ImportedMessage f_imported = 22;
    BazMessage f_baz = 23;
    BazMessage.Nested f_nested = 24;
    BazMessage.Nested.NestedEnum f_nested_enum = 25;
    map<string, int32> f_map = 26;
    oneof test_oneof {
        int32 f1 = 27;
        bool f2 = 28;
        string f3 = 29;
    }
    repeated string f_repeated_string = 30;
    repeated BazMessage f_repeated_baz_message = 31;
}

message BazMessage {
    message Nested {
        message NestedMessage {
            int32 f_nested = 1;
        }
        enum NestedEnum {
            Foo = 0;
            Bar = 1;
            Baz = 2;
        }
        NestedMessage f_nested = 1;
    }
    Nested nested = 1;
    int64 b_int64 = 2;
    string b_string = 3;
}

message RepeatedMessage {
  repeated BarMessage bar_message = 1;
}
".
(** quick-protobuf/examples/pb_rs_v3/data_types_import.proto *)
Definition three_data_types_import_proto : text := "syntax = ""proto3"";

package a.b;

message ImportedMessage {
    bool i = 1;
}
".
(** quick-protobuf/examples/pb_rs_v3/data_types_unit.proto *)
Definition three_data_types_unit_proto : text := "message unit_message { }

enum test {
    a = 10;
}
".
(** quick-protobuf/examples/pb_rs_v3/data_types.rs *)
Definition three_data_types_rs : text := "// Automatically generated rust module for 'data_types.proto' file

#![allow(non_snake_case)]
#![allow(non_upper_case_globals)]
#![allow(non_camel_case_types)]
#![allow(unused_imports)]
#![allow(unknown_lints)]
#![allow(clippy::all)]
#![cfg_attr(rustfmt, rustfmt_skip)]


use std::borrow::Cow;
use std::collections::HashMap;
type KVMap<K, V> = HashMap<K, V>;
use quick_protobuf::{MessageInfo, MessageRead, MessageWrite, BytesReader, Writer, WriterBackend, Result, PackedFixed, PackedFixedIntoIter, PackedFixedRefIter};
use quick_protobuf::sizeofs::*;
use super::*;

#[derive(Debug, PartialEq, Eq, Clone, Copy)]
pub enum FooEnum {
    FIRST_VALUE = 1,
    SECOND_VALUE = 2,
}

impl Default for FooEnum {
    fn default() -> Self {
        FooEnum::FIRST_VALUE
    }
}

impl From<i32> for FooEnum {
    fn from(i: i32) -> Self {
        match i {
            1 => FooEnum::FIRST_VALUE,
            2 => FooEnum::SECOND_VALUE,
            _ => Self::default(),
        }
    }
}

impl<'a> From<&'a str> for FooEnum {
    fn from(s: &'a str) -> Self {
        match s {
            ""FIRST_VALUE"" => FooEnum::FIRST_VALUE,
            ""SECOND_VALUE"" => FooEnum::SECOND_VALUE,
            _ => Self::default(),
        }
    }
}

#[allow(clippy::derive_partial_eq_without_eq)]
#[derive(Default, Debug, PartialEq, Clone)]
pub struct BarMessage {
    pub b_int32: i32,
}

impl<'a> MessageRead<'a> for BarMessage {
    fn from_reader(r: &mut BytesReader, bytes: &'a [u8]) -> Result<Self> {
        let mut msg = Self::default();
        while !r.is_eof() {
            match r.next_tag(bytes) {
                Ok(8) => msg.b_int32 = r.read_int32(bytes)?,
                Ok(t) => { r.read_unknown(bytes, t)?; }
                Err(e) => return Err(e),
            }
        }
        Ok(msg)
    }
}

impl MessageWrite for BarMessage {
    fn get_size(&self) -> usize {
        0
        + if self.b_int32 == 0i32 { 0 } else { 1 + sizeof_varint(*(&self.b_int32) as u64) }
    }

    fn write_message<W: WriterBackend>(&self, w: &mut Writer<W>) -> Result<()> {
        if self.b_int32 != 0i32 { w.write_with_tag(8, |w| w.write_int32(*&self.b_int32))?; }
        Ok(())
    }
}

#[allow(clippy::derive_partial_eq_without_eq)]
#[derive(Default, Debug, PartialEq, Clone)]
pub struct FooMessage<'a> {
    pub f_int32: i32,
    pub f_int64: i64,
    pub f_uint32: u32,
    pub f_uint64: u64,
    pub f_sint32: i32,
    pub f_sint64: i64,
    pub f_bool: bool,
    pub f_FooEnum: FooEnum,
    pub f_fixed64: u64,
    pub f_sfixed64: i64,
    pub f_fixed32: u32,
    pub f_sfixed32: i32,
    pub f_double: f64,
    pub f_float: f32,
    pub f_bytes: Cow<'a, [u8]>,
    pub f_string: Cow<'a, str>,
    pub f_self_message: Option<Box<FooMessage<'a>>>,
    pub f_bar_message: BarMessage,
    pub f_repeated_int32: Vec<i32>,
    pub f_repeated_packed_int32: Vec<i32>,
    pub f_repeated_packed_float: PackedFixed<'a, f32>,
    pub f_imported: a::b::ImportedMessage,
    pub f_baz: BazMessage<'a>,
    pub f_nested: mod_BazMessage::Nested,
    pub f_nested_enum: mod_BazMessage::mod_Nested::NestedEnum,
    pub f_map: KVMap<Cow<'a, str>, i32>,
    pub f_repeated_string: Vec<Cow<'a, str>>,
    pub f_repeated_baz_message: Vec<BazMessage<'a>>,
    pub test_oneof: mod_FooMessage::OneOftest_oneof<'a>,
}

impl<'a> MessageRead<'a> for FooMessage<'a> {
    fn from_reader(r: &mut BytesReader, bytes: &'a [u8]) -> Result<Self> {
        let mut msg = Self::default();
        while !r.is_eof() {
            match r.next_tag(bytes) {
                Ok(8) => msg.f_int32 = r.read_int32(bytes)?,
                Ok(16) => msg.f_int64 = r.read_int64(bytes)?,
                Ok(24) => msg.f_uint32 = r.read_uint32(bytes)?,
                Ok(32) => msg.f_uint64 = r.read_uint64(bytes)?,
                Ok(40) => msg.f_sint32 = r.read_sint32(bytes)?,
                Ok(48) => msg.f_sint64 = r.read_sint64(bytes)?,
                Ok(56) => msg.f_bool = r.read_bool(bytes)?,
                Ok(64) => msg.f_FooEnum = r.read_enum(bytes)?,
                Ok(73) => msg.f_fixed64 = r.read_fixed64(bytes)?,
                Ok(81) => msg.f_sfixed64 = r.read_sfixed64(bytes)?,
                Ok(93) => msg.f_fixed32 = r.read_fixed32(bytes)?,
                Ok(101) => msg.f_sfixed32 = r.read_sfixed32(bytes)?,
                Ok(105) => msg.f_double = r.read_double(bytes)?,
                Ok(117) => msg.f_float = r.read_float(bytes)?,
                Ok(122) => msg.f_bytes = r.read_bytes(bytes).map(Cow::Borrowed)?,
                Ok(130) => msg.f_string = r.read_string(bytes).map(Cow::Borrowed)?,
                Ok(138) => msg.f_self_message = Some(Box::new(r.read_message::<FooMessage>(bytes)?)),
                Ok(146) => msg.f_bar_message = r.read_message::<BarMessage>(bytes)?,
                Ok(154) => msg.f_repeated_int32 = r.read_packed(bytes, |r, bytes| Ok(r.read_int32(bytes)?))?,
                Ok(162) => msg.f_repeated_packed_int32 = r.read_packed(bytes, |r, bytes| Ok(r.read_int32(bytes)?))?,
                Ok(170) => msg.f_repeated_packed_float = r.read_packed_fixed(bytes)?,
                Ok(178) => msg.f_imported = r.read_message::<a::b::ImportedMessage>(bytes)?,
                Ok(186) => msg.f_baz = r.read_message::<BazMessage>(bytes)?,
                Ok(194) => msg.f_nested = r.read_message::<mod_BazMessage::Nested>(bytes)?,
                Ok(200) => msg.f_nested_enum = r.read_enum(bytes)?,
                Ok(210) => {
                    let (key, value) = r.read_map(bytes, |r, bytes| Ok(r.read_string(bytes).map(Cow::Borrowed)?), |r, bytes| Ok(r.read_int32(bytes)?))?;
                    msg.f_map.insert(key, value);
                }
                Ok(242) => msg.f_repeated_string.push(r.read_string(bytes).map(Cow::Borrowed)?),
                Ok(250) => msg.f_repeated_baz_message.push(r.read_message::<BazMessage>(bytes)?),
                Ok(216) => msg.test_oneof = mod_FooMessage::OneOftest_oneof::f1(r.read_int32(bytes)?),
                Ok(224) => msg.test_oneof = mod_FooMessage::OneOftest_oneof::f2(r.read_bool(bytes)?),
                Ok(234) => msg.test_oneof = mod_FooMessage::OneOftest_oneof::f3(r.read_string(bytes).map(Cow::Borrowed)?),
                Ok(t) => { r.read_unknown(bytes, t)?; }
                Err(e) => return Err(e),
            }
        }
        Ok(msg)
    }
}

impl<'a> MessageWrite for FooMessage<'a> {
    fn get_size(&self) -> usize {
        0
        + if self.f_int32 == 0i32 { 0 } else { 1 + sizeof_varint(*(&self.f_int32) as u64) }
        + if self.f_int64 == 0i64 { 0 } else { 1 + sizeof_varint(*(&self.f_int64) as u64) }
        + if self.f_uint32 == 0u32 { 0 } else { 1 + sizeof_varint(*(&self.f_uint32) as u64) }
        + if self.f_uint64 == 0u64 { 0 } else { 1 + sizeof_varint(*(&self.f_uint64) as u64) }
        + if self.f_sint32 == 0i32 { 0 } else { 1 + sizeof_sint32(*(&self.f_sint32)) }
        + if self.f_sint64 == 4i64 { 0 } else { 1 + sizeof_sint64(*(&self.f_sint64)) }
        + if self.f_bool == true { 0 } else { 1 + sizeof_varint(*(&self.f_bool) as u64) }
        + if self.f_FooEnum == data_types::FooEnum::FIRST_VALUE { 0 } else { 1 + sizeof_varint(*(&self.f_FooEnum) as u64) }
        + if self.f_fixed64 == 0u64 { 0 } else { 1 + 8 }
        + if self.f_sfixed64 == 0i64 { 0 } else { 1 + 8 }
        + if self.f_fixed32 == 0u32 { 0 } else { 1 + 4 }
        + if self.f_sfixed32 == 0i32 { 0 } else { 1 + 4 }
        + if self.f_double == 0f64 { 0 } else { 1 + 8 }
        + if self.f_float == 0f32 { 0 } else { 1 + 4 }
        + if self.f_bytes == Cow::Borrowed(b"""") { 0 } else { 1 + sizeof_len((&self.f_bytes).len()) }
        + if self.f_string == Cow::Borrowed("""") { 0 } else { 2 + sizeof_len((&self.f_string).len()) }
        + self.f_self_message.as_ref().map_or(0, |m| 2 + sizeof_len((m).get_size()))
        + 2 + sizeof_len((self.f_bar_message).get_size())
        + if self.f_repeated_int32.is_empty() { 0 } else { 2 + sizeof_len(self.f_repeated_int32.iter().map(|&s| sizeof_varint(*(&s) as u64)).sum::<usize>()) }
        + if self.f_repeated_packed_int32.is_empty() { 0 } else { 2 + sizeof_len(self.f_repeated_packed_int32.iter().map(|&s| sizeof_varint(*(&s) as u64)).sum::<usize>()) }
        + if self.f_repeated_packed_float.is_empty() { 0 } else { 2 + sizeof_len(self.f_repeated_packed_float.len() * 4) }
        + 2 + sizeof_len((self.f_imported).get_size())
        + 2 + sizeof_len((self.f_baz).get_size())
        + 2 + sizeof_len((self.f_nested).get_size())
        + if self.f_nested_enum == data_types::mod_BazMessage::mod_Nested::NestedEnum::Foo { 0 } else { 2 + sizeof_varint(*(&self.f_nested_enum) as u64) }
        + self.f_map.iter().map(|(k, &v)| 2 + sizeof_len(2 + sizeof_len((&k).len()) + sizeof_varint(*(&v) as u64))).sum::<usize>()
        + self.f_repeated_string.iter().map(|s| 2 + sizeof_len((&s).len())).sum::<usize>()
        + self.f_repeated_baz_message.iter().map(|s| 2 + sizeof_len((s).get_size())).sum::<usize>()
        + match &self.test_oneof {
            mod_FooMessage::OneOftest_oneof::f1(m) => 2 + sizeof_varint(*(&*m) as u64),
            mod_FooMessage::OneOftest_oneof::f2(m) => 2 + sizeof_varint(*(&*m) as u64),
            mod_FooMessage::OneOftest_oneof::f3(ref m) => 2 + sizeof_len((&m).len()),
            mod_FooMessage::OneOftest_oneof::None => 0,
        }
    }

    fn write_message<W: WriterBackend>(&self, w: &mut Writer<W>) -> Result<()> {
        if self.f_int32 != 0i32 { w.write_with_tag(8, |w| w.write_int32(*&self.f_int32))?; }
        if self.f_int64 != 0i64 { w.write_with_tag(16, |w| w.write_int64(*&self.f_int64))?; }
        if self.f_uint32 != 0u32 { w.write_with_tag(24, |w| w.write_uint32(*&self.f_uint32))?; }
        if self.f_uint64 != 0u64 { w.write_with_tag(32, |w| w.write_uint64(*&self.f_uint64))?; }
        if self.f_sint32 != 0i32 { w.write_with_tag(40, |w| w.write_sint32(*&self.f_sint32))?; }
        if self.f_sint64 != 4i64 { w.write_with_tag(48, |w| w.write_sint64(*&self.f_sint64))?; }
        if self.f_bool != true { w.write_with_tag(56, |w| w.write_bool(*&self.f_bool))?; }
        if self.f_FooEnum != data_types::FooEnum::FIRST_VALUE { w.write_with_tag(64, |w| w.write_enum(*&self.f_FooEnum as i32))?; }
        if self.f_fixed64 != 0u64 { w.write_with_tag(73, |w| w.write_fixed64(*&self.f_fixed64))?; }
        if self.f_sfixed64 != 0i64 { w.write_with_tag(81, |w| w.write_sfixed64(*&self.f_sfixed64))?; }
        if self.f_fixed32 != 0u32 { w.write_with_tag(93, |w| w.write_fixed32(*&self.f_fixed32))?; }
        if self.f_sfixed32 != 0i32 { w.write_with_tag(101, |w| w.write_sfixed32(*&self.f_sfixed32))?; }
        if self.f_double != 0f64 { w.write_with_tag(105, |w| w.write_double(*&self.f_double))?; }
        if self.f_float != 0f32 { w.write_with_tag(117, |w| w.write_float(*&self.f_float))?; }
        if self.f_bytes != Cow::Borrowed(b"""") { w.write_with_tag(122, |w| w.write_bytes(&self.f_bytes))?; }
        if self.f_string != Cow::Borrowed("""") { w.write_with_tag(130, |w| w.write_string(&self.f_string))?; }
        self.f_self_message.as_ref().map_or(Ok(()), |m| w.write_with_tag(138, |w| w.write_message(&*(*(m)))))?;
        w.write_with_tag(146, |w| w.write_message(&self.f_bar_message))?;
        w.write_packed_with_tag(154, &self.f_repeated_int32, |w, &m| w.write_int32(*&m), &|&m| sizeof_varint(*(&m) as u64))?;
        w.write_packed_with_tag(162, &self.f_repeated_packed_int32, |w, &m| w.write_int32(*&m), &|&m| sizeof_varint(*(&m) as u64))?;
        w.write_packed_fixed_with_tag(170, &self.f_repeated_packed_float)?;
        w.write_with_tag(178, |w| w.write_message(&self.f_imported))?;
        w.write_with_tag(186, |w| w.write_message(&self.f_baz))?;
        w.write_with_tag(194, |w| w.write_message(&self.f_nested))?;
        if self.f_nested_enum != data_types::mod_BazMessage::mod_Nested::NestedEnum::Foo { w.write_with_tag(200, |w| w.write_enum(*&self.f_nested_enum as i32))?; }
        for (k, &v) in self.f_map.iter() { w.write_with_tag(210, |w| w.write_map(2 + sizeof_len((&k).len()) + sizeof_varint(*(&v) as u64), 10, |w| w.write_string(k), 16, |w| w.write_int32(*&v)))?; }
        for s in &self.f_repeated_string { w.write_with_tag(242, |w| w.write_string(s))?; }
        for s in &self.f_repeated_baz_message { w.write_with_tag(250, |w| w.write_message(s))?; }
        match &self.test_oneof {
            mod_FooMessage::OneOftest_oneof::f1(m) => { w.write_with_tag(216, |w| w.write_int32(*&*m))? },
            mod_FooMessage::OneOftest_oneof::f2(m) => { w.write_with_tag(224, |w| w.write_bool(*&*m))? },
            mod_FooMessage::OneOftest_oneof::f3(m) => { w.write_with_tag(234, |w| w.write_string(m))? },
            mod_FooMessage::OneOftest_oneof::None => {},
        }
        Ok(())
    }
}

pub mod mod_FooMessage {

use super::*;

#[derive(Debug, PartialEq, Clone)]
pub enum OneOftest_oneof<'a> {
    f1(i32),
    f2(bool),
    f3(Cow<'a, str>),
    None,
}

impl<'a> Default for OneOftest_oneof<'a> {
    fn default() -> Self {
        OneOftest_oneof::None
    }
}

}

#[allow(clippy::derive_partial_eq_without_eq)]
#[derive(Default, Debug, PartialEq, Clone)]
pub struct BazMessage<'a> {
    pub nested: mod_BazMessage::Nested,
    pub b_int64: i64,
    pub b_string: Cow<'a, str>,
}

impl<'a> MessageRead<'a> for BazMessage<'a> {
    fn from_reader(r: &mut BytesReader, bytes: &'a [u8]) -> Result<Self> {
        let mut msg = Self::default();
        while !r.is_eof() {
            match r.next_tag(bytes) {
                Ok(10) => msg.nested = r.read_message::<mod_BazMessage::Nested>(bytes)?,
                Ok(16) => msg.b_int64 = r.read_int64(bytes)?,
                Ok(26) => msg.b_string = r.read_string(bytes).map(Cow::Borrowed)?,
                Ok(t) => { r.read_unknown(bytes, t)?; }
                Err(e) => return Err(e),
            }
        }
        Ok(msg)
    }
}

impl<'a> MessageWrite for BazMessage<'a> {
    fn get_size(&self) -> usize {
        0
        + 1 + sizeof_len((self.nested).get_size())
        + if self.b_int64 == 0i64 { 0 } else { 1 + sizeof_varint(*(&self.b_int64) as u64) }
        + if self.b_string == Cow::Borrowed("""") { 0 } else { 1 + sizeof_len((&self.b_string).len()) }
    }

    fn write_message<W: WriterBackend>(&self, w: &mut Writer<W>) -> Result<()> {
        w.write_with_tag(10, |w| w.write_message(&self.nested))?;
        if self.b_int64 != 0i64 { w.write_with_tag(16, |w| w.write_int64(*&self.b_int64))?; }
        if self.b_string != Cow::Borrowed("""") { w.write_with_tag(26, |w| w.write_string(&self.b_string))?; }
        Ok(())
    }
}

pub mod mod_BazMessage {

use super::*;

#[allow(clippy::derive_partial_eq_without_eq)]
#[derive(Default, Debug, PartialEq, Clone)]
pub struct Nested {
    pub f_nested: mod_BazMessage::mod_Nested::NestedMessage,
}

impl<'a> MessageRead<'a> for Nested {
    fn from_reader(r: &mut BytesReader, bytes: &'a [u8]) -> Result<Self> {
        let mut msg = Self::default();
        while !r.is_eof() {
            match r.next_tag(bytes) {
                Ok(10) => msg.f_nested = r.read_message::<mod_BazMessage::mod_Nested::NestedMessage>(bytes)?,
                Ok(t) => { r.read_unknown(bytes, t)?; }
                Err(e) => return Err(e),
            }
        }
        Ok(msg)
    }
}

impl MessageWrite for Nested {
    fn get_size(&self) -> usize {
        0
        + 1 + sizeof_len((self.f_nested).get_size())
    }

    fn write_message<W: WriterBackend>(&self, w: &mut Writer<W>) -> Result<()> {
        w.write_with_tag(10, |w| w.write_message(&self.f_nested))?;
        Ok(())
    }
}

pub mod mod_Nested {

use super::*;

#[allow(clippy::derive_partial_eq_without_eq)]
#[derive(Default, Debug, PartialEq, Clone)]
pub struct NestedMessage {
    pub f_nested: i32,
}

impl<'a> MessageRead<'a> for NestedMessage {
    fn from_reader(r: &mut BytesReader, bytes: &'a [u8]) -> Result<Self> {
        let mut msg = Self::default();
        while !r.is_eof() {
            match r.next_tag(bytes) {
                Ok(8) => msg.f_nested = r.read_int32(bytes)?,
                Ok(t) => { r.read_unknown(bytes, t)?; }
                Err(e) => return Err(e),
            }
        }
        Ok(msg)
    }
}

impl MessageWrite for NestedMessage {
    fn get_size(&self) -> usize {
        0
        + if self.f_nested == 0i32 { 0 } else { 1 + sizeof_varint(*(&self.f_nested) as u64) }
    }

    fn write_message<W: WriterBackend>(&self, w: &mut Writer<W>) -> Result<()> {
        if self.f_nested != 0i32 { w.write_with_tag(8, |w| w.write_int32(*&self.f_nested))?; }
        Ok(())
    }
}

#[derive(Debug, PartialEq, Eq, Clone, Copy)]
pub enum NestedEnum {
    Foo = 0,
    Bar = 1,
    Baz = 2,
}

impl Default for NestedEnum {
    fn default() -> Self {
        NestedEnum::Foo
    }
}

impl From<i32> for NestedEnum {
    fn from(i: i32) -> Self {
        match i {
            0 => NestedEnum::Foo,
            1 => NestedEnum::Bar,
            2 => NestedEnum::Baz,
            _ => Self::default(),
        }
    }
}

impl<'a> From<&'a str> for NestedEnum {
    fn from(s: &'a str) -> Self {
        match s {
            ""Foo"" => NestedEnum::Foo,
            ""Bar"" => NestedEnum::Bar,
            ""Baz"" => NestedEnum::Baz,
            _ => Self::default(),
        }
    }
}

}

}

#[allow(clippy::derive_partial_eq_without_eq)]
#[derive(Default, Debug, PartialEq, Clone)]
pub struct RepeatedMessage {
    pub bar_message: Vec<BarMessage>,
}

impl<'a> MessageRead<'a> for RepeatedMessage {
    fn from_reader(r: &mut BytesReader, bytes: &'a [u8]) -> Result<Self> {
        let mut msg = Self::default();
        while !r.is_eof() {
            match r.next_tag(bytes) {
                Ok(10) => msg.bar_message.push(r.read_message::<BarMessage>(bytes)?),
                Ok(t) => { r.read_unknown(bytes, t)?; }
                Err(e) => return Err(e),
            }
        }
        Ok(msg)
    }
}

impl MessageWrite for RepeatedMessage {
    fn get_size(&self) -> usize {
        0
        + self.bar_message.iter().map(|s| 1 + sizeof_len((s).get_size())).sum::<usize>()
    }

    fn write_message<W: WriterBackend>(&self, w: &mut Writer<W>) -> Result<()> {
        for s in &self.bar_message { w.write_with_tag(10, |w| w.write_message(s))?; }
        Ok(())
    }
}

".
(** quick-protobuf/examples/pb_rs_v3/data_types_unit.rs *)
Definition three_data_types_unit_rs : text := "// Automatically generated rust module for 'data_types_unit.proto' file

#![allow(non_snake_case)]
#![allow(non_upper_case_globals)]
#![allow(non_camel_case_types)]
#![allow(unused_imports)]
#![allow(unknown_lints)]
#![allow(clippy::all)]
#![cfg_attr(rustfmt, rustfmt_skip)]


use quick_protobuf::{BytesReader, Result, MessageInfo, MessageRead, MessageWrite};
use super::*;

#[derive(Debug, PartialEq, Eq, Clone, Copy)]
pub enum test {
    a = 10,
}

impl Default for test {
    fn default() -> Self {
        test::a
    }
}

impl From<i32> for test {
    fn from(i: i32) -> Self {
        match i {
            10 => test::a,
            _ => Self::default(),
        }
    }
}

impl<'a> From<&'a str> for test {
    fn from(s: &'a str) -> Self {
        match s {
            ""a"" => test::a,
            _ => Self::default(),
        }
    }
}

#[allow(clippy::derive_partial_eq_without_eq)]
#[derive(Default, Debug, PartialEq, Clone)]
pub struct unit_message { }

impl<'a> MessageRead<'a> for unit_message {
    fn from_reader(r: &mut BytesReader, _: &[u8]) -> Result<Self> {
        r.read_to_end();
        Ok(Self::default())
    }
}

impl MessageWrite for unit_message { }

".
(** quick-protobuf/examples/pb_rs_v3/a/b.rs *)
Definition three_a_b_rs : text := "// Automatically generated rust module for 'data_types_import.proto' file

#![allow(non_snake_case)]
#![allow(non_upper_case_globals)]
#![allow(non_camel_case_types)]
#![allow(unused_imports)]
#![allow(unknown_lints)]
#![allow(clippy::all)]
#![cfg_attr(rustfmt, rustfmt_skip)]


use quick_protobuf::{MessageInfo, MessageRead, MessageWrite, BytesReader, Writer, WriterBackend, Result, PackedFixed, PackedFixedIntoIter, PackedFixedRefIter};
use quick_protobuf::sizeofs::*;
use super::super::*;

#[allow(clippy::derive_partial_eq_without_eq)]
#[derive(Default, Debug, PartialEq, Clone)]
pub struct ImportedMessage {
    pub i: bool,
}

impl<'a> MessageRead<'a> for ImportedMessage {
    fn from_reader(r: &mut BytesReader, bytes: &'a [u8]) -> Result<Self> {
        let mut msg = Self::default();
        while !r.is_eof() {
            match r.next_tag(bytes) {
                Ok(8) => msg.i = r.read_bool(bytes)?,
                Ok(t) => { r.read_unknown(bytes, t)?; }
                Err(e) => return Err(e),
            }
        }
        Ok(msg)
    }
}

impl MessageWrite for ImportedMessage {
    fn get_size(&self) -> usize {
        0
        + if self.i == false { 0 } else { 1 + sizeof_varint(*(&self.i) as u64) }
    }

    fn write_message<W: WriterBackend>(&self, w: &mut Writer<W>) -> Result<()> {
        if self.i != false { w.write_with_tag(8, |w| w.write_bool(*&self.i))?; }
        Ok(())
    }
}

".
(** quick-protobuf/examples/pb_rs_v3/a/mod.rs *)
Definition three_a_mod_rs : text := "// Automatically generated mod.rs
pub mod b;
".
Definition conform_three : bool := Eval vm_compute in makes
  (mkOptions ["quick-protobuf/examples/pb_rs_v3/data_types.proto"; "quick-protobuf/examples/pb_rs_v3/data_types_import.proto"; "quick-protobuf/examples/pb_rs_v3/data_types_unit.proto"] None (Some "quick-protobuf/examples/pb_rs_v3") ["quick-protobuf/examples/pb_rs_v3"]
     false false false false None None false false false false false false false)
  ["quick-protobuf"; "quick-protobuf/examples"; "quick-protobuf/examples/pb_rs_v3"]
  [("quick-protobuf/examples/pb_rs_v3/data_types.proto", three_data_types_proto);
   ("quick-protobuf/examples/pb_rs_v3/data_types_import.proto", three_data_types_import_proto);
   ("quick-protobuf/examples/pb_rs_v3/data_types_unit.proto", three_data_types_unit_proto)]
  [("quick-protobuf/examples/pb_rs_v3/data_types.rs", three_data_types_rs);
   ("quick-protobuf/examples/pb_rs_v3/data_types_unit.rs", three_data_types_unit_rs);
   ("quick-protobuf/examples/pb_rs_v3/a/b.rs", three_a_b_rs);
   ("quick-protobuf/examples/pb_rs_v3/a/mod.rs", three_a_mod_rs)].
Check eq_refl : conform_three = true.

(** ** quick-protobuf/examples/pb_rs_v3/owned: [pb-rs D/*.proto -I D --owned --output_directory D/owned] *)

(** quick-protobuf/examples/pb_rs_v3/owned/data_types.rs *)
Definition owned_data_types_rs : text := "// Automatically generated rust module for 'data_types.proto' file

#![allow(non_snake_case)]
#![allow(non_upper_case_globals)]
#![allow(non_camel_case_types)]
#![allow(unused_imports)]
#![allow(unknown_lints)]
#![allow(clippy::all)]
#![cfg_attr(rustfmt, rustfmt_skip)]


use std::borrow::Cow;
use std::collections::HashMap;
type KVMap<K, V> = HashMap<K, V>;
use quick_protobuf::{MessageInfo, MessageRead, MessageWrite, BytesReader, Writer, WriterBackend, Result, PackedFixed, PackedFixedIntoIter, PackedFixedRefIter};
use core::convert::{TryFrom, TryInto};
use quick_protobuf::sizeofs::*;
use super::*;

#[derive(Debug, PartialEq, Eq, Clone, Copy)]
pub enum FooEnum {
    FIRST_VALUE = 1,
    SECOND_VALUE = 2,
}

impl Default for FooEnum {
    fn default() -> Self {
        FooEnum::FIRST_VALUE
    }
}

impl From<i32> for FooEnum {
    fn from(i: i32) -> Self {
        match i {
            1 => FooEnum::FIRST_VALUE,
            2 => FooEnum::SECOND_VALUE,
            _ => Self::default(),
        }
    }
}

impl<'a> From<&'a str> for FooEnum {
    fn from(s: &'a str) -> Self {
        match s {
            ""FIRST_VALUE"" => FooEnum::FIRST_VALUE,
            ""SECOND_VALUE"" => FooEnum::SECOND_VALUE,
            _ => Self::default(),
        }
    }
}

#[allow(clippy::derive_partial_eq_without_eq)]
#[derive(Default, Debug, PartialEq, Clone)]
pub struct BarMessage {
    pub b_int32: i32,
}

impl<'a> MessageRead<'a> for BarMessage {
    fn from_reader(r: &mut BytesReader, bytes: &'a [u8]) -> Result<Self> {
        let mut msg = Self::default();
        while !r.is_eof() {
            match r.next_tag(bytes) {
                Ok(8) => msg.b_int32 = r.read_int32(bytes)?,
                Ok(t) => { r.read_unknown(bytes, t)?; }
                Err(e) => return Err(e),
            }
        }
        Ok(msg)
    }
}

impl MessageWrite for BarMessage {
    fn get_size(&self) -> usize {
        0
        + if self.b_int32 == 0i32 { 0 } else { 1 + sizeof_varint(*(&self.b_int32) as u64) }
    }

    fn write_message<W: WriterBackend>(&self, w: &mut Writer<W>) -> Result<()> {
        if self.b_int32 != 0i32 { w.write_with_tag(8, |w| w.write_int32(*&self.b_int32))?; }
        Ok(())
    }
}


            impl TryFrom<&[u8]> for BarMessage {
                type Error=quick_protobuf::Error;

                fn try_from(buf: &[u8]) -> Result<Self> {
                    let mut reader = BytesReader::from_bytes(&buf);
                    Ok(BarMessage::from_reader(&mut reader, &buf)?)
                }
            }
            
#[allow(clippy::derive_partial_eq_without_eq)]
#[derive(Default, Debug, PartialEq, Clone)]
pub struct FooMessage<'a> {
    pub f_int32: i32,
    pub f_int64: i64,
    pub f_uint32: u32,
    pub f_uint64: u64,
    pub f_sint32: i32,
    pub f_sint64: i64,
    pub f_bool: bool,
    pub f_FooEnum: FooEnum,
    pub f_fixed64: u64,
    pub f_sfixed64: i64,
    pub f_fixed32: u32,
    pub f_sfixed32: i32,
    pub f_double: f64,
    pub f_float: f32,
    pub f_bytes: Cow<'a, [u8]>,
    pub f_string: Cow<'a, str>,
    pub f_self_message: Option<Box<FooMessage<'a>>>,
    pub f_bar_message: BarMessage,
    pub f_repeated_int32: Vec<i32>,
    pub f_repeated_packed_int32: Vec<i32>,
    pub f_repeated_packed_float: PackedFixed<'a, f32>,
    pub f_imported: a::b::ImportedMessage,
    pub f_baz: BazMessage<'a>,
    pub f_nested: mod_BazMessage::Nested,
    pub f_nested_enum: mod_BazMessage::mod_Nested::NestedEnum,
    pub f_map: KVMap<Cow<'a, str>, i32>,
    pub f_repeated_string: Vec<Cow<'a, str>>,
    pub f_repeated_baz_message: Vec<BazMessage<'a>>,
    pub test_oneof: mod_FooMessage::OneOftest_oneof<'a>,
}

impl<'a> MessageRead<'a> for FooMessage<'a> {
    fn from_reader(r: &mut BytesReader, bytes: &'a [u8]) -> Result<Self> {
        let mut msg = Self::default();
        while !r.is_eof() {
            match r.next_tag(bytes) {
                Ok(8) => msg.f_int32 = r.read_int32(bytes)?,
                Ok(16) => msg.f_int64 = r.read_int64(bytes)?,
                Ok(24) => msg.f_uint32 = r.read_uint32(bytes)?,
                Ok(32) => msg.f_uint64 = r.read_uint64(bytes)?,
                Ok(40) => msg.f_sint32 = r.read_sint32(bytes)?,
                Ok(48) => msg.f_sint64 = r.read_sint64(bytes)?,
                Ok(56) => msg.f_bool = r.read_bool(bytes)?,
                Ok(64) => msg.f_FooEnum = r.read_enum(bytes)?,
                Ok(73) => msg.f_fixed64 = r.read_fixed64(bytes)?,
                Ok(81) => msg.f_sfixed64 = r.read_sfixed64(bytes)?,
                Ok(93) => msg.f_fixed32 = r.read_fixed32(bytes)?,
                Ok(101) => msg.f_sfixed32 = r.read_sfixed32(bytes)?,
                Ok(105) => msg.f_double = r.read_double(bytes)?,
                Ok(117) => msg.f_float = r.read_float(bytes)?,
                Ok(122) => msg.f_bytes = r.read_bytes(bytes).map(Cow::Borrowed)?,
                Ok(130) => msg.f_string = r.read_string(bytes).map(Cow::Borrowed)?,
                Ok(138) => msg.f_self_message = Some(Box::new(r.read_message::<FooMessage>(bytes)?)),
                Ok(146) => msg.f_bar_message = r.read_message::<BarMessage>(bytes)?,
                Ok(154) => msg.f_repeated_int32 = r.read_packed(bytes, |r, bytes| Ok(r.read_int32(bytes)?))?,
                Ok(162) => msg.f_repeated_packed_int32 = r.read_packed(bytes, |r, bytes| Ok(r.read_int32(bytes)?))?,
                Ok(170) => msg.f_repeated_packed_float = r.read_packed_fixed(bytes)?,
                Ok(178) => msg.f_imported = r.read_message::<a::b::ImportedMessage>(bytes)?,
                Ok(186) => msg.f_baz = r.read_message::<BazMessage>(bytes)?,
                Ok(194) => msg.f_nested = r.read_message::<mod_BazMessage::Nested>(bytes)?,
                Ok(200) => msg.f_nested_enum = r.read_enum(bytes)?,
                Ok(210) => {
                    let (key, value) = r.read_map(bytes, |r, bytes| Ok(r.read_string(bytes).map(Cow::Borrowed)?), |r, bytes| Ok(r.read_int32(bytes)?))?;
                    msg.f_map.insert(key, value);
                }
                Ok(242) => msg.f_repeated_string.push(r.read_string(bytes).map(Cow::Borrowed)?),
                Ok(250) => msg.f_repeated_baz_message.push(r.read_message::<BazMessage>(bytes)?),
                Ok(216) => msg.test_oneof = mod_FooMessage::OneOftest_oneof::f1(r.read_int32(bytes)?),
                Ok(224) => msg.test_oneof = mod_FooMessage::OneOftest_oneof::f2(r.read_bool(bytes)?),
                Ok(234) => msg.test_oneof = mod_FooMessage::OneOftest_oneof::f3(r.read_string(bytes).map(Cow::Borrowed)?),
                Ok(t) => { r.read_unknown(bytes, t)?; }
                Err(e) => return Err(e),
            }
        }
        Ok(msg)
    }
}

impl<'a> MessageWrite for FooMessage<'a> {
    fn get_size(&self) -> usize {
        0
        + if self.f_int32 == 0i32 { 0 } else { 1 + sizeof_varint(*(&self.f_int32) as u64) }
        + if self.f_int64 == 0i64 { 0 } else { 1 + sizeof_varint(*(&self.f_int64) as u64) }
        + if self.f_uint32 == 0u32 { 0 } else { 1 + sizeof_varint(*(&self.f_uint32) as u64) }
        + if self.f_uint64 == 0u64 { 0 } else { 1 + sizeof_varint(*(&self.f_uint64) as u64) }
        + if self.f_sint32 == 0i32 { 0 } else { 1 + sizeof_sint32(*(&self.f_sint32)) }
        + if self.f_sint64 == 4i64 { 0 } else { 1 + sizeof_sint64(*(&self.f_sint64)) }
        + if self.f_bool == true { 0 } else { 1 + sizeof_varint(*(&self.f_bool) as u64) }
        + if self.f_FooEnum == data_types::FooEnum::FIRST_VALUE { 0 } else { 1 + sizeof_varint(*(&self.f_FooEnum) as u64) }
        + if self.f_fixed64 == 0u64 { 0 } else { 1 + 8 }
        + if self.f_sfixed64 == 0i64 { 0 } else { 1 + 8 }
        + if self.f_fixed32 == 0u32 { 0 } else { 1 + 4 }
        + if self.f_sfixed32 == 0i32 { 0 } else { 1 + 4 }
        + if self.f_double == 0f64 { 0 } else { 1 + 8 }
        + if self.f_float == 0f32 { 0 } else { 1 + 4 }
        + if self.f_bytes == Cow::Borrowed(b"""") { 0 } else { 1 + sizeof_len((&self.f_bytes).len()) }
        + if self.f_string == Cow::Borrowed("""") { 0 } else { 2 + sizeof_len((&self.f_string).len()) }
        + self.f_self_message.as_ref().map_or(0, |m| 2 + sizeof_len((m).get_size()))
        + 2 + sizeof_len((self.f_bar_message).get_size())
        + if self.f_repeated_int32.is_empty() { 0 } else { 2 + sizeof_len(self.f_repeated_int32.iter().map(|&s| sizeof_varint(*(&s) as u64)).sum::<usize>()) }
        + if self.f_repeated_packed_int32.is_empty() { 0 } else { 2 + sizeof_len(self.f_repeated_packed_int32.iter().map(|&s| sizeof_varint(*(&s) as u64)).sum::<usize>()) }
        + if self.f_repeated_packed_float.is_empty() { 0 } else { 2 + sizeof_len(self.f_repeated_packed_float.len() * 4) }
        + 2 + sizeof_len((self.f_imported).get_size())
        + 2 + sizeof_len((self.f_baz).get_size())
        + 2 + sizeof_len((self.f_nested).get_size())
        + if self.f_nested_enum == data_types::mod_BazMessage::mod_Nested::NestedEnum::Foo { 0 } else { 2 + sizeof_varint(*(&self.f_nested_enum) as u64) }
        + self.f_map.iter().map(|(k, &v)| 2 + sizeof_len(2 + sizeof_len((&k).len()) + sizeof_varint(*(&v) as u64))).sum::<usize>()
        + self.f_repeated_string.iter().map(|s| 2 + sizeof_len((&s).len())).sum::<usize>()
        + self.f_repeated_baz_message.iter().map(|s| 2 + sizeof_len((s).get_size())).sum::<usize>()
        + match &self.test_oneof {
            mod_FooMessage::OneOftest_oneof::f1(m) => 2 + sizeof_varint(*(&*m) as u64),
            mod_FooMessage::OneOftest_oneof::f2(m) => 2 + sizeof_varint(*(&*m) as u64),
            mod_FooMessage::OneOftest_oneof::f3(ref m) => 2 + sizeof_len((&m).len()),
            mod_FooMessage::OneOftest_oneof::None => 0,
        }
    }

    fn write_message<W: WriterBackend>(&self, w: &mut Writer<W>) -> Result<()> {
        if self.f_int32 != 0i32 { w.write_with_tag(8, |w| w.write_int32(*&self.f_int32))?; }
        if self.f_int64 != 0i64 { w.write_with_tag(16, |w| w.write_int64(*&self.f_int64))?; }
        if self.f_uint32 != 0u32 { w.write_with_tag(24, |w| w.write_uint32(*&self.f_uint32))?; }
        if self.f_uint64 != 0u64 { w.write_with_tag(32, |w| w.write_uint64(*&self.f_uint64))?; }
        if self.f_sint32 != 0i32 { w.write_with_tag(40, |w| w.write_sint32(*&self.f_sint32))?; }
        if self.f_sint64 != 4i64 { w.write_with_tag(48, |w| w.write_sint64(*&self.f_sint64))?; }
        if self.f_bool != true { w.write_with_tag(56, |w| w.write_bool(*&self.f_bool))?; }
        if self.f_FooEnum != data_types::FooEnum::FIRST_VALUE { w.write_with_tag(64, |w| w.write_enum(*&self.f_FooEnum as i32))?; }
        if self.f_fixed64 != 0u64 { w.write_with_tag(73, |w| w.write_fixed64(*&self.f_fixed64))?; }
        if self.f_sfixed64 != 0i64 { w.write_with_tag(81, |w| w.write_sfixed64(*&self.f_sfixed64))?; }
        if self.f_fixed32 != 0u32 { w.write_with_tag(93, |w| w.write_fixed32(*&self.f_fixed32))?; }
        if self.f_sfixed32 != 0i32 { w.write_with_tag(101, |w| w.write_sfixed32(*&self.f_sfixed32))?; }
        if self.f_double != 0f64 { w.write_with_tag(105, |w| w.write_double(*&self.f_double))?; }
        if self.f_float != 0f32 { w.write_with_tag(117, |w| w.write_float(*&self.f_float))?; }
        if self.f_bytes != Cow::Borrowed(b"""") { w.write_with_tag(122, |w| w.write_bytes(&self.f_bytes))?; }
        if self.f_string != Cow::Borrowed("""") { w.write_with_tag(130, |w| w.write_string(&self.f_string))?; }
        self.f_self_message.as_ref().map_or(Ok(()), |m| w.write_with_tag(138, |w| w.write_message(&*(*(m)))))?;
        w.write_with_tag(146, |w| w.write_message(&self.f_bar_message))?;
        w.write_packed_with_tag(154, &self.f_repeated_int32, |w, &m| w.write_int32(*&m), &|&m| sizeof_varint(*(&m) as u64))?;
        w.write_packed_with_tag(162, &self.f_repeated_packed_int32, |w, &m| w.write_int32(*&m), &|&m| sizeof_varint(*(&m) as u64))?;
        w.write_packed_fixed_with_tag(170, &self.f_repeated_packed_float)?;
        w.write_with_tag(178, |w| w.write_message(&self.f_imported))?;
        w.write_with_tag(186, |w| w.write_message(&self.f_baz))?;
        w.write_with_tag(194, |w| w.write_message(&self.f_nested))?;
        if self.f_nested_enum != data_types::mod_BazMessage::mod_Nested::NestedEnum::Foo { w.write_with_tag(200, |w| w.write_enum(*&self.f_nested_enum as i32))?; }
        for (k, &v) in self.f_map.iter() { w.write_with_tag(210, |w| w.write_map(2 + sizeof_len((&k).len()) + sizeof_varint(*(&v) as u64), 10, |w| w.write_string(k), 16, |w| w.write_int32(*&v)))?; }
        for s in &self.f_repeated_string { w.write_with_tag(242, |w| w.write_string(s))?; }
        for s in &self.f_repeated_baz_message { w.write_with_tag(250, |w| w.write_message(s))?; }
        match &self.test_oneof {
            mod_FooMessage::OneOftest_oneof::f1(m) => { w.write_with_tag(216, |w| w.write_int32(*&*m))? },
            mod_FooMessage::OneOftest_oneof::f2(m) => { w.write_with_tag(224, |w| w.write_bool(*&*m))? },
            mod_FooMessage::OneOftest_oneof::f3(m) => { w.write_with_tag(234, |w| w.write_string(m))? },
            mod_FooMessage::OneOftest_oneof::None => {},
        }
        Ok(())
    }
}


            // IMPORTANT: For any future changes, note that the lifetime parameter
            // of the `proto` field is set to 'static!!!
            //
            // This means that the internals of `proto` should at no point create a
            // mutable reference to something using that lifetime parameter, on pain
            // of UB. This applies even though it may be transmuted to a smaller
            // lifetime later (through `proto()` or `proto_mut()`).
            //
            // At the time of writing, the only possible thing that uses the
            // lifetime parameter is `Cow<'a, T>`, which never does this, so it's
            // not UB.
            //
            #[derive(Debug)]
            struct FooMessageOwnedInner {
                buf: Vec<u8>,
                proto: Option<FooMessage<'static>>,
                _pin: core::marker::PhantomPinned,
            }

            impl FooMessageOwnedInner {
                fn new(buf: Vec<u8>) -> Result<core::pin::Pin<Box<Self>>> {
                    let inner = Self {
                        buf,
                        proto: None,
                        _pin: core::marker::PhantomPinned,
                    };
                    let mut pinned = Box::pin(inner);

                    let mut reader = BytesReader::from_bytes(&pinned.buf);
                    let proto = FooMessage::from_reader(&mut reader, &pinned.buf)?;

                    unsafe {
                        let proto = core::mem::transmute::<_, FooMessage<'_>>(proto);
                        pinned.as_mut().get_unchecked_mut().proto = Some(proto);
                    }
                    Ok(pinned)
                }
            }

            pub struct FooMessageOwned {
                inner: core::pin::Pin<Box<FooMessageOwnedInner>>,
            }

            #[allow(dead_code)]
            impl FooMessageOwned {
                pub fn buf(&self) -> &[u8] {
                    &self.inner.buf
                }

                pub fn proto<'a>(&'a self) -> &'a FooMessage<'a> {
                    let proto = self.inner.proto.as_ref().unwrap();
                    unsafe { core::mem::transmute::<&FooMessage<'static>, &FooMessage<'a>>(proto) }
                }

                pub fn proto_mut<'a>(&'a mut self) -> &'a mut FooMessage<'a> {
                    let inner = self.inner.as_mut();
                    let inner = unsafe { inner.get_unchecked_mut() };
                    let proto = inner.proto.as_mut().unwrap();
                    unsafe { core::mem::transmute::<_, &mut FooMessage<'a>>(proto) }
                }
            }

            impl core::fmt::Debug for FooMessageOwned {
                fn fmt(&self, f: &mut core::fmt::Formatter<'_>) -> core::fmt::Result {
                    self.inner.proto.as_ref().unwrap().fmt(f)
                }
            }

            impl TryFrom<Vec<u8>> for FooMessageOwned {
                type Error=quick_protobuf::Error;

                fn try_from(buf: Vec<u8>) -> Result<Self> {
                    Ok(Self { inner: FooMessageOwnedInner::new(buf)? })
                }
            }

            impl TryInto<Vec<u8>> for FooMessageOwned {
                type Error=quick_protobuf::Error;

                fn try_into(self) -> Result<Vec<u8>> {
                    let mut buf = Vec::new();
                    let mut writer = Writer::new(&mut buf);
                    self.inner.proto.as_ref().unwrap().write_message(&mut writer)?;
                    Ok(buf)
                }
            }

            impl From<FooMessage<'static>> for FooMessageOwned {
                fn from(proto: FooMessage<'static>) -> Self {
                    Self {
                        inner: Box::pin(FooMessageOwnedInner {
                            buf: Vec::new(),
                            proto: Some(proto),
                            _pin: core::marker::PhantomPinned,
                        })
                    }
                }
            }
            
pub mod mod_FooMessage {

use super::*;

#[derive(Debug, PartialEq, Clone)]
pub enum OneOftest_oneof<'a> {
    f1(i32),
    f2(bool),
    f3(Cow<'a, str>),
    None,
}

impl<'a> Default for OneOftest_oneof<'a> {
    fn default() -> Self {
        OneOftest_oneof::None
    }
}

}

#[allow(clippy::derive_partial_eq_without_eq)]
#[derive(Default, Debug, PartialEq, Clone)]
pub struct BazMessage<'a> {
    pub nested: mod_BazMessage::Nested,
    pub b_int64: i64,
    pub b_string: Cow<'a, str>,
}

impl<'a> MessageRead<'a> for BazMessage<'a> {
    fn from_reader(r: &mut BytesReader, bytes: &'a [u8]) -> Result<Self> {
        let mut msg = Self::default();
        while !r.is_eof() {
            match r.next_tag(bytes) {
                Ok(10) => msg.nested = r.read_message::<mod_BazMessage::Nested>(bytes)?,
                Ok(16) => msg.b_int64 = r.read_int64(bytes)?,
                Ok(26) => msg.b_string = r.read_string(bytes).map(Cow::Borrowed)?,
                Ok(t) => { r.read_unknown(bytes, t)?; }
                Err(e) => return Err(e),
            }
        }
        Ok(msg)
    }
}

impl<'a> MessageWrite for BazMessage<'a> {
    fn get_size(&self) -> usize {
        0
        + 1 + sizeof_len((self.nested).get_size())
        + if self.b_int64 == 0i64 { 0 } else { 1 + sizeof_varint(*(&self.b_int64) as u64) }
        + if self.b_string == Cow::Borrowed("""") { 0 } else { 1 + sizeof_len((&self.b_string).len()) }
    }

    fn write_message<W: WriterBackend>(&self, w: &mut Writer<W>) -> Result<()> {
        w.write_with_tag(10, |w| w.write_message(&self.nested))?;
        if self.b_int64 != 0i64 { w.write_with_tag(16, |w| w.write_int64(*&self.b_int64))?; }
        if self.b_string != Cow::Borrowed("""") { w.write_with_tag(26, |w| w.write_string(&self.b_string))?; }
        Ok(())
    }
}


            // IMPORTANT: For any future changes, note that the lifetime parameter
            // of the `proto` field is set to 'static!!!
            //
            // This means that the internals of `proto` should at no point create a
            // mutable reference to something using that lifetime parameter, on pain
            // of UB. This applies even though it may be transmuted to a smaller
            // lifetime later (through `proto()` or `proto_mut()`).
            //
            // At the time of writing, the only possible thing that uses the
            // lifetime parameter is `Cow<'a, T>`, which never does this, so it's
            // not UB.
            //
            #[derive(Debug)]
            struct BazMessageOwnedInner {
                buf: Vec<u8>,
                proto: Option<BazMessage<'static>>,
                _pin: core::marker::PhantomPinned,
            }

            impl BazMessageOwnedInner {
                fn new(buf: Vec<u8>) -> Result<core::pin::Pin<Box<Self>>> {
                    let inner = Self {
                        buf,
                        proto: None,
                        _pin: core::marker::PhantomPinned,
                    };
                    let mut pinned = Box::pin(inner);

                    let mut reader = BytesReader::from_bytes(&pinned.buf);
                    let proto = BazMessage::from_reader(&mut reader, &pinned.buf)?;

                    unsafe {
                        let proto = core::mem::transmute::<_, BazMessage<'_>>(proto);
                        pinned.as_mut().get_unchecked_mut().proto = Some(proto);
                    }
                    Ok(pinned)
                }
            }

            pub struct BazMessageOwned {
                inner: core::pin::Pin<Box<BazMessageOwnedInner>>,
            }

            #[allow(dead_code)]
            impl BazMessageOwned {
                pub fn buf(&self) -> &[u8] {
                    &self.inner.buf
                }

                pub fn proto<'a>(&'a self) -> &'a BazMessage<'a> {
                    let proto = self.inner.proto.as_ref().unwrap();
                    unsafe { core::mem::transmute::<&BazMessage<'static>, &BazMessage<'a>>(proto) }
                }

                pub fn proto_mut<'a>(&'a mut self) -> &'a mut BazMessage<'a> {
                    let inner = self.inner.as_mut();
                    let inner = unsafe { inner.get_unchecked_mut() };
                    let proto = inner.proto.as_mut().unwrap();
                    unsafe { core::mem::transmute::<_, &mut BazMessage<'a>>(proto) }
                }
            }

            impl core::fmt::Debug for BazMessageOwned {
                fn fmt(&self, f: &mut core::fmt::Formatter<'_>) -> core::fmt::Result {
                    self.inner.proto.as_ref().unwrap().fmt(f)
                }
            }

            impl TryFrom<Vec<u8>> for BazMessageOwned {
                type Error=quick_protobuf::Error;

                fn try_from(buf: Vec<u8>) -> Result<Self> {
                    Ok(Self { inner: BazMessageOwnedInner::new(buf)? })
                }
            }

            impl TryInto<Vec<u8>> for BazMessageOwned {
                type Error=quick_protobuf::Error;

                fn try_into(self) -> Result<Vec<u8>> {
                    let mut buf = Vec::new();
                    let mut writer = Writer::new(&mut buf);
                    self.inner.proto.as_ref().unwrap().write_message(&mut writer)?;
                    Ok(buf)
                }
            }

            impl From<BazMessage<'static>> for BazMessageOwned {
                fn from(proto: BazMessage<'static>) -> Self {
                    Self {
                        inner: Box::pin(BazMessageOwnedInner {
                            buf: Vec::new(),
                            proto: Some(proto),
                            _pin: core::marker::PhantomPinned,
                        })
                    }
                }
            }
            
pub mod mod_BazMessage {

use super::*;

#[allow(clippy::derive_partial_eq_without_eq)]
#[derive(Default, Debug, PartialEq, Clone)]
pub struct Nested {
    pub f_nested: mod_BazMessage::mod_Nested::NestedMessage,
}

impl<'a> MessageRead<'a> for Nested {
    fn from_reader(r: &mut BytesReader, bytes: &'a [u8]) -> Result<Self> {
        let mut msg = Self::default();
        while !r.is_eof() {
            match r.next_tag(bytes) {
                Ok(10) => msg.f_nested = r.read_message::<mod_BazMessage::mod_Nested::NestedMessage>(bytes)?,
                Ok(t) => { r.read_unknown(bytes, t)?; }
                Err(e) => return Err(e),
            }
        }
        Ok(msg)
    }
}

impl MessageWrite for Nested {
    fn get_size(&self) -> usize {
        0
        + 1 + sizeof_len((self.f_nested).get_size())
    }

    fn write_message<W: WriterBackend>(&self, w: &mut Writer<W>) -> Result<()> {
        w.write_with_tag(10, |w| w.write_message(&self.f_nested))?;
        Ok(())
    }
}


            impl TryFrom<&[u8]> for Nested {
                type Error=quick_protobuf::Error;

                fn try_from(buf: &[u8]) -> Result<Self> {
                    let mut reader = BytesReader::from_bytes(&buf);
                    Ok(Nested::from_reader(&mut reader, &buf)?)
                }
            }
            
pub mod mod_Nested {

use super::*;

#[allow(clippy::derive_partial_eq_without_eq)]
#[derive(Default, Debug, PartialEq, Clone)]
pub struct NestedMessage {
    pub f_nested: i32,
}

impl<'a> MessageRead<'a> for NestedMessage {
    fn from_reader(r: &mut BytesReader, bytes: &'a [u8]) -> Result<Self> {
        let mut msg = Self::default();
        while !r.is_eof() {
            match r.next_tag(bytes) {
                Ok(8) => msg.f_nested = r.read_int32(bytes)?,
                Ok(t) => { r.read_unknown(bytes, t)?; }
                Err(e) => return Err(e),
            }
        }
        Ok(msg)
    }
}

impl MessageWrite for NestedMessage {
    fn get_size(&self) -> usize {
        0
        + if self.f_nested == 0i32 { 0 } else { 1 + sizeof_varint(*(&self.f_nested) as u64) }
    }

    fn write_message<W: WriterBackend>(&self, w: &mut Writer<W>) -> Result<()> {
        if self.f_nested != 0i32 { w.write_with_tag(8, |w| w.write_int32(*&self.f_nested))?; }
        Ok(())
    }
}


            impl TryFrom<&[u8]> for NestedMessage {
                type Error=quick_protobuf::Error;

                fn try_from(buf: &[u8]) -> Result<Self> {
                    let mut reader = BytesReader::from_bytes(&buf);
                    Ok(NestedMessage::from_reader(&mut reader, &buf)?)
                }
            }
            
#[derive(Debug, PartialEq, Eq, Clone, Copy)]
pub enum NestedEnum {
    Foo = 0,
    Bar = 1,
    Baz = 2,
}

impl Default for NestedEnum {
    fn default() -> Self {
        NestedEnum::Foo
    }
}

impl From<i32> for NestedEnum {
    fn from(i: i32) -> Self {
        match i {
            0 => NestedEnum::Foo,
            1 => NestedEnum::Bar,
            2 => NestedEnum::Baz,
            _ => Self::default(),
        }
    }
}

impl<'a> From<&'a str> for NestedEnum {
    fn from(s: &'a str) -> Self {
        match s {
            ""Foo"" => NestedEnum::Foo,
            ""Bar"" => NestedEnum::Bar,
            ""Baz"" => NestedEnum::Baz,
            _ => Self::default(),
        }
    }
}

}

}

#[allow(clippy::derive_partial_eq_without_eq)]
#[derive(Default, Debug, PartialEq, Clone)]
pub struct RepeatedMessage {
    pub bar_message: Vec<BarMessage>,
}

impl<'a> MessageRead<'a> for RepeatedMessage {
    fn from_reader(r: &mut BytesReader, bytes: &'a [u8]) -> Result<Self> {
        let mut msg = Self::default();
        while !r.is_eof() {
            match r.next_tag(bytes) {
                Ok(10) => msg.bar_message.push(r.read_message::<BarMessage>(bytes)?),
                Ok(t) => { r.read_unknown(bytes, t)?; }
                Err(e) => return Err(e),
            }
        }
        Ok(msg)
    }
}

impl MessageWrite for RepeatedMessage {
    fn get_size(&self) -> usize {
        0
        + self.bar_message.iter().map(|s| 1 + sizeof_len((s).get_size())).sum::<usize>()
    }

    fn write_message<W: WriterBackend>(&self, w: &mut Writer<W>) -> Result<()> {
        for s in &self.bar_message { w.write_with_tag(10, |w| w.write_message(s))?; }
        Ok(())
    }
}


            impl TryFrom<&[u8]> for RepeatedMessage {
                type Error=quick_protobuf::Error;

                fn try_from(buf: &[u8]) -> Result<Self> {
                    let mut reader = BytesReader::from_bytes(&buf);
                    Ok(RepeatedMessage::from_reader(&mut reader, &buf)?)
                }
            }
            
".
(** quick-protobuf/examples/pb_rs_v3/owned/data_types_unit.rs *)
Definition owned_data_types_unit_rs : text := "// Automatically generated rust module for 'data_types_unit.proto' file

#![allow(non_snake_case)]
#![allow(non_upper_case_globals)]
#![allow(non_camel_case_types)]
#![allow(unused_imports)]
#![allow(unknown_lints)]
#![allow(clippy::all)]
#![cfg_attr(rustfmt, rustfmt_skip)]


use quick_protobuf::{BytesReader, Result, MessageInfo, MessageRead, MessageWrite};
use core::convert::{TryFrom, TryInto};
use super::*;

#[derive(Debug, PartialEq, Eq, Clone, Copy)]
pub enum test {
    a = 10,
}

impl Default for test {
    fn default() -> Self {
        test::a
    }
}

impl From<i32> for test {
    fn from(i: i32) -> Self {
        match i {
            10 => test::a,
            _ => Self::default(),
        }
    }
}

impl<'a> From<&'a str> for test {
    fn from(s: &'a str) -> Self {
        match s {
            ""a"" => test::a,
            _ => Self::default(),
        }
    }
}

#[allow(clippy::derive_partial_eq_without_eq)]
#[derive(Default, Debug, PartialEq, Clone)]
pub struct unit_message { }

impl<'a> MessageRead<'a> for unit_message {
    fn from_reader(r: &mut BytesReader, _: &[u8]) -> Result<Self> {
        r.read_to_end();
        Ok(Self::default())
    }
}

impl MessageWrite for unit_message { }


            impl TryFrom<&[u8]> for unit_message {
                type Error=quick_protobuf::Error;

                fn try_from(buf: &[u8]) -> Result<Self> {
                    let mut reader = BytesReader::from_bytes(&buf);
                    Ok(unit_message::from_reader(&mut reader, &buf)?)
                }
            }
            
".
(** quick-protobuf/examples/pb_rs_v3/owned/a/b.rs *)
Definition owned_a_b_rs : text := "// Automatically generated rust module for 'data_types_import.proto' file

#![allow(non_snake_case)]
#![allow(non_upper_case_globals)]
#![allow(non_camel_case_types)]
#![allow(unused_imports)]
#![allow(unknown_lints)]
#![allow(clippy::all)]
#![cfg_attr(rustfmt, rustfmt_skip)]


use quick_protobuf::{MessageInfo, MessageRead, MessageWrite, BytesReader, Writer, WriterBackend, Result, PackedFixed, PackedFixedIntoIter, PackedFixedRefIter};
use core::convert::{TryFrom, TryInto};
use quick_protobuf::sizeofs::*;
use super::super::*;

#[allow(clippy::derive_partial_eq_without_eq)]
#[derive(Default, Debug, PartialEq, Clone)]
pub struct ImportedMessage {
    pub i: bool,
}

impl<'a> MessageRead<'a> for ImportedMessage {
    fn from_reader(r: &mut BytesReader, bytes: &'a [u8]) -> Result<Self> {
        let mut msg = Self::default();
        while !r.is_eof() {
            match r.next_tag(bytes) {
                Ok(8) => msg.i = r.read_bool(bytes)?,
                Ok(t) => { r.read_unknown(bytes, t)?; }
                Err(e) => return Err(e),
            }
        }
        Ok(msg)
    }
}

impl MessageWrite for ImportedMessage {
    fn get_size(&self) -> usize {
        0
        + if self.i == false { 0 } else { 1 + sizeof_varint(*(&self.i) as u64) }
    }

    fn write_message<W: WriterBackend>(&self, w: &mut Writer<W>) -> Result<()> {
        if self.i != false { w.write_with_tag(8, |w| w.write_bool(*&self.i))?; }
        Ok(())
    }
}


            impl TryFrom<&[u8]> for ImportedMessage {
                type Error=quick_protobuf::Error;

                fn try_from(buf: &[u8]) -> Result<Self> {
                    let mut reader = BytesReader::from_bytes(&buf);
                    Ok(ImportedMessage::from_reader(&mut reader, &buf)?)
                }
            }
            
".
(** quick-protobuf/examples/pb_rs_v3/owned/a/mod.rs *)
Definition owned_a_mod_rs : text := "// Automatically generated mod.rs
pub mod b;
".
(** quick-protobuf/examples/pb_rs_v3/owned/mod.rs *)
Definition owned_mod_rs : text := "// Automatically generated mod.rs
pub mod data_types;
pub mod a;
pub mod data_types_unit;
".
Definition conform_owned : bool := Eval vm_compute in makes
  (mkOptions ["quick-protobuf/examples/pb_rs_v3/data_types.proto"; "quick-protobuf/examples/pb_rs_v3/data_types_import.proto"; "quick-protobuf/examples/pb_rs_v3/data_types_unit.proto"] None (Some "quick-protobuf/examples/pb_rs_v3/owned") ["quick-protobuf/examples/pb_rs_v3"]
     false false false false None None false true false false false false false)
  ["quick-protobuf"; "quick-protobuf/examples"; "quick-protobuf/examples/pb_rs_v3"; "quick-protobuf/examples/pb_rs_v3/owned"]
  [("quick-protobuf/examples/pb_rs_v3/data_types.proto", three_data_types_proto);
   ("quick-protobuf/examples/pb_rs_v3/data_types_import.proto", three_data_types_import_proto);
   ("quick-protobuf/examples/pb_rs_v3/data_types_unit.proto", three_data_types_unit_proto)]
  [("quick-protobuf/examples/pb_rs_v3/owned/data_types.rs", owned_data_types_rs);
   ("quick-protobuf/examples/pb_rs_v3/owned/data_types_unit.rs", owned_data_types_unit_rs);
   ("quick-protobuf/examples/pb_rs_v3/owned/a/b.rs", owned_a_b_rs);
   ("quick-protobuf/examples/pb_rs_v3/owned/a/mod.rs", owned_a_mod_rs);
   ("quick-protobuf/examples/pb_rs_v3/owned/mod.rs", owned_mod_rs)].
Check eq_refl : conform_owned = true.

(** ** quick-protobuf/examples/pb_rs_nostd: [pb-rs --nostd -I D -d D D/*.proto] *)

(** quick-protobuf/examples/pb_rs_nostd/no_std.proto *)
Definition nostd_no_std_proto : text := "syntax = ""proto3"";

package protos.no_std;

enum MyEnum {
  Val0 = 0;
  Val1 = 1;
}

message EmbeddedMessage {
  int32 val = 1;
  MyEnum e = 2;
}

message NoStdMessage {
  fixed32 num = 1;
  repeated fixed32 nums = 2;
  EmbeddedMessage message = 3;
  repeated EmbeddedMessage messages = 4;
}
".
(** quick-protobuf/examples/pb_rs_nostd/protos/no_std.rs *)
Definition nostd_protos_no_std_rs : text := "// Automatically generated rust module for 'no_std.proto' file

#![allow(non_snake_case)]
#![allow(non_upper_case_globals)]
#![allow(non_camel_case_types)]
#![allow(unused_imports)]
#![allow(unknown_lints)]
#![allow(clippy::all)]
#![cfg_attr(rustfmt, rustfmt_skip)]


use alloc::vec::Vec;
use alloc::borrow::Cow;
use quick_protobuf::{MessageInfo, MessageRead, MessageWrite, BytesReader, Writer, WriterBackend, Result, PackedFixed, PackedFixedIntoIter, PackedFixedRefIter};
use quick_protobuf::sizeofs::*;
use super::super::*;

#[derive(Debug, PartialEq, Eq, Clone, Copy)]
pub enum MyEnum {
    Val0 = 0,
    Val1 = 1,
}

impl Default for MyEnum {
    fn default() -> Self {
        MyEnum::Val0
    }
}

impl From<i32> for MyEnum {
    fn from(i: i32) -> Self {
        match i {
            0 => MyEnum::Val0,
            1 => MyEnum::Val1,
            _ => Self::default(),
        }
    }
}

impl<'a> From<&'a str> for MyEnum {
    fn from(s: &'a str) -> Self {
        match s {
            ""Val0"" => MyEnum::Val0,
            ""Val1"" => MyEnum::Val1,
            _ => Self::default(),
        }
    }
}

#[allow(clippy::derive_partial_eq_without_eq)]
#[derive(Default, Debug, PartialEq, Clone)]
pub struct EmbeddedMessage {
    pub val: i32,
    pub e: protos::no_std::MyEnum,
}

impl<'a> MessageRead<'a> for EmbeddedMessage {
    fn from_reader(r: &mut BytesReader, bytes: &'a [u8]) -> Result<Self> {
        let mut msg = Self::default();
        while !r.is_eof() {
            match r.next_tag(bytes) {
                Ok(8) => msg.val = r.read_int32(bytes)?,
                Ok(16) => msg.e = r.read_enum(bytes)?,
                Ok(t) => { r.read_unknown(bytes, t)?; }
                Err(e) => return Err(e),
            }
        }
        Ok(msg)
    }
}

impl MessageWrite for EmbeddedMessage {
    fn get_size(&self) -> usize {
        0
        + if self.val == 0i32 { 0 } else { 1 + sizeof_varint(*(&self.val) as u64) }
        + if self.e == protos::no_std::MyEnum::Val0 { 0 } else { 1 + sizeof_varint(*(&self.e) as u64) }
    }

    fn write_message<W: WriterBackend>(&self, w: &mut Writer<W>) -> Result<()> {
        if self.val != 0i32 { w.write_with_tag(8, |w| w.write_int32(*&self.val))?; }
        if self.e != protos::no_std::MyEnum::Val0 { w.write_with_tag(16, |w| w.write_enum(*&self.e as i32))?; }
        Ok(())
    }
}

#[allow(clippy::derive_partial_eq_without_eq)]
#[derive(Default, Debug, PartialEq, Clone)]
pub struct NoStdMessage<'a> {
    pub num: u32,
    pub nums: PackedFixed<'a, u32>,
    pub message: protos::no_std::EmbeddedMessage,
    pub messages: Vec<protos::no_std::EmbeddedMessage>,
}

impl<'a> MessageRead<'a> for NoStdMessage<'a> {
    fn from_reader(r: &mut BytesReader, bytes: &'a [u8]) -> Result<Self> {
        let mut msg = Self::default();
        while !r.is_eof() {
            match r.next_tag(bytes) {
                Ok(13) => msg.num = r.read_fixed32(bytes)?,
                Ok(18) => msg.nums = r.read_packed_fixed(bytes)?,
                Ok(26) => msg.message = r.read_message::<protos::no_std::EmbeddedMessage>(bytes)?,
                Ok(34) => msg.messages.push(r.read_message::<protos::no_std::EmbeddedMessage>(bytes)?),
                Ok(t) => { r.read_unknown(bytes, t)?; }
                Err(e) => return Err(e),
            }
        }
        Ok(msg)
    }
}

impl<'a> MessageWrite for NoStdMessage<'a> {
    fn get_size(&self) -> usize {
        0
        + if self.num == 0u32 { 0 } else { 1 + 4 }
        + if self.nums.is_empty() { 0 } else { 1 + sizeof_len(self.nums.len() * 4) }
        + 1 + sizeof_len((self.message).get_size())
        + self.messages.iter().map(|s| 1 + sizeof_len((s).get_size())).sum::<usize>()
    }

    fn write_message<W: WriterBackend>(&self, w: &mut Writer<W>) -> Result<()> {
        if self.num != 0u32 { w.write_with_tag(13, |w| w.write_fixed32(*&self.num))?; }
        w.write_packed_fixed_with_tag(18, &self.nums)?;
        w.write_with_tag(26, |w| w.write_message(&self.message))?;
        for s in &self.messages { w.write_with_tag(34, |w| w.write_message(s))?; }
        Ok(())
    }
}

".
(** quick-protobuf/examples/pb_rs_nostd/protos/mod.rs *)
Definition nostd_protos_mod_rs : text := "// Automatically generated mod.rs
pub mod no_std;
".
(** quick-protobuf/examples/pb_rs_nostd/mod.rs *)
Definition nostd_mod_rs : text := "// Automatically generated mod.rs
pub mod protos;
".
Definition conform_nostd : bool := Eval vm_compute in makes
  (mkOptions ["quick-protobuf/examples/pb_rs_nostd/no_std.proto"] None (Some "quick-protobuf/examples/pb_rs_nostd") ["quick-protobuf/examples/pb_rs_nostd"]
     false false false false None None false false true false false false false)
  ["quick-protobuf"; "quick-protobuf/examples"; "quick-protobuf/examples/pb_rs_nostd"]
  [("quick-protobuf/examples/pb_rs_nostd/no_std.proto", nostd_no_std_proto)]
  [("quick-protobuf/examples/pb_rs_nostd/protos/no_std.rs", nostd_protos_no_std_rs);
   ("quick-protobuf/examples/pb_rs_nostd/protos/mod.rs", nostd_protos_mod_rs);
   ("quick-protobuf/examples/pb_rs_nostd/mod.rs", nostd_mod_rs)].
Check eq_refl : conform_nostd = true.

(** ** quick-protobuf/tests/rust_protobuf/generate.sh *)

(** v2/issue118-2.proto *)
Definition test_0 : text := "/* -*- Mode: protobuf; tab-width: 8; indent-tabs-mode: nil; c-basic-offset: 4 -*-
 * vim: set ts=8 sts=4 et sw=4 tw=99: */

syntax = ""proto2"";

message First {
  required Fourth first_field = 1;
}

message Second {
  optional First second_field = 1;
}

message Third {
  required First third_field = 1;
}

message Fourth {
  optional Third fourth_field = 1;
  required Fifth fourth_field_2 = 2;
}

message Fifth {
  required Second fifth_field = 1;
}

message Sixth {
  optional Sixth sixth_field = 1;
}

message Seventh {
  required Eighth seventh_field = 1;
}

message Eighth {
  optional Seventh eighth_field = 1;
}
".
(** v2/issue118.proto *)
Definition test_1 : text := "/* -*- Mode: protobuf; tab-width: 8; indent-tabs-mode: nil; c-basic-offset: 4 -*-
 * vim: set ts=8 sts=4 et sw=4 tw=99: */

syntax = ""proto2"";

message ViaOneOf {
    oneof Alternatives {
        Data present = 1;
        bool absent  = 2;
    }

    message Data {
        required ViaOneOf self_reference = 1;
    }
}

message ViaOptional {
    optional Data data = 1;

    message Data {
        required ViaOptional self_reference = 1;
    }
}
".
(** v2/issue_170_a.proto *)
Definition test_2 : text := "syntax = ""proto2"";

import ""issue_170_common.proto"";
import ""issue_170_b.proto"";


message A {
    Common common = 1;
    B b = 2;
}
".
(** v2/issue_170_b.proto *)
Definition test_3 : text := "syntax = ""proto2"";

import ""issue_170_common.proto"";

message B {
    Common common = 1;
}
".
(** v2/issue_170_c.proto *)
Definition test_4 : text := "syntax = ""proto2"";

import ""issue_170_common.proto"";
import ""issue_170_b.proto"";
import ""issue_170_a.proto"";

message C {
    Common common = 1;
    B b = 2;
    A a = 3;
}
".
(** v2/issue_170_common.proto *)
Definition test_5 : text := "syntax = ""proto2"";

message Common {}
".
(** v2/issue_170_d.proto *)
Definition test_6 : text := "syntax = ""proto2"";

import ""issue_170_common.proto"";
import ""issue_170_b.proto"";
import ""issue_170_a.proto"";
import ""issue_170_c.proto"";

message D {
    Common common = 1;
    B b = 2;
    A a = 3;
    C c = 4;
}
".
(** v2/issue_170_e.proto *)
Definition test_7 : text := "syntax = ""proto2"";

import ""issue_170_common.proto"";
import ""issue_170_b.proto"";
import ""issue_170_a.proto"";
import ""issue_170_c.proto"";
import ""issue_170_d.proto"";

message E {
    Common common = 1;
    B b = 2;
    A a = 3;
    C c = 4;
    D d = 5;
}
".
(** v2/struct.proto *)
Definition test_8 : text := "// this file just checks that file name is properly escaped,
// because `struct` is a keyword in rust
message KeepTheFile {}
".
(** v2/test-sanitize-file-name_pb.proto *)
Definition test_9 : text := "syntax = ""proto2"";

message FooBar {}
".
(** v2/test_basic_pb.proto *)
Definition test_10 : text := "syntax = ""proto2"";

package basic;

message Test1 {
    required int32 a = 1;
}

message Test2 {
    required string b = 2;
}

message Test3 {
    required Test1 c = 3;
}

message Test4 {
    repeated int32 d = 4 [packed=true];
}


message TestPackedUnpacked {
    repeated int32 unpacked = 4;
    repeated int32 packed = 5 [packed=true];
}

message TestEmpty {
    optional int32 foo = 10;
}

message TestUnknownFields {
    required int32 a = 1;
}

// just check it compiles
message TestSelfReference {
    required TestSelfReference r1 = 1;
    optional TestSelfReference r2 = 2;
}

message TestDefaultInstanceField {
    optional string s = 1;
}

message TestDefaultInstance {
    optional TestDefaultInstanceField field = 1;
}

message TestDescriptor {
    optional int32 stuff = 10;
}

enum TestEnumDescriptor {
    RED = 1;
    BLUE = 2;
    GREEN = 3;
}

message TestTypesSingular {
    optional double double_field = 1;
    optional float float_field = 2;
    optional int32 int32_field = 3;
    optional int64 int64_field = 4;
    optional uint32 uint32_field = 5;
    optional uint64 uint64_field = 6;
    optional sint32 sint32_field = 7;
    optional sint64 sint64_field = 8;
    optional fixed32 fixed32_field = 9;
    optional fixed64 fixed64_field = 10;
    optional sfixed32 sfixed32_field = 11;
    optional sfixed64 sfixed64_field = 12;
    optional bool bool_field = 13;
    optional string string_field = 14;
    optional bytes bytes_field = 15;
    optional TestEnumDescriptor enum_field = 16;
}

message TestTypesRepeated {
    repeated double double_field = 1 [packed=false];
    repeated float float_field = 2 [packed=false];
    repeated int32 int32_field = 3 [packed=false];
    repeated int64 int64_field = 4 [packed=false];
    repeated uint32 uint32_field = 5 [packed=false];
    repeated uint64 uint64_field = 6 [packed=false];
    repeated sint32 sint32_field = 7 [packed=false];
    repeated sint64 sint64_field = 8 [packed=false];
    repeated fixed32 fixed32_field = 9 [packed=false];
    repeated fixed64 fixed64_field = 10 [packed=false];
    repeated sfixed32 sfixed32_field = 11 [packed=false];
    repeated sfixed64 sfixed64_field = 12 [packed=false];
    repeated bool bool_field = 13 [packed=false];
    repeated string string_field = 14;
    repeated bytes bytes_field = 15;
    repeated TestEnumDescriptor enum_field = 16 [packed=false];
}

message TestTypesRepeatedPacked {
    repeated double double_field = 1 [packed=true];
    repeated float float_field = 2 [packed=true];
    repeated int32 int32_field = 3 [packed=true];
    repeated int64 int64_field = 4 [packed=true];
    repeated uint32 uint32_field = 5 [packed=true];
    repeated uint64 uint64_field = 6 [packed=true];
    repeated sint32 sint32_field = 7 [packed=true];
    repeated sint64 sint64_field = 8 [packed=true];
    repeated fixed32 fixed32_field = 9 [packed=true];
    repeated fixed64 fixed64_field = 10 [packed=true];
    repeated sfixed32 sfixed32_field = 11 [packed=true];
    repeated sfixed64 sfixed64_field = 12 [packed=true];
    repeated bool bool_field = 13 [packed=true];
    repeated string string_field = 14;
    repeated bytes bytes_field = 15;
    repeated TestEnumDescriptor enum_field = 16 [packed=true];
}

message TestInvalidTag {
}

message TestTruncated {
    repeated fixed32 ints = 2 [packed=true];
}

message TestBugSint {
    optional sint32 s32 = 1;
    optional sint64 s64 = 2;
}
".
(** v2/test_comments.proto *)
Definition test_11 : text := "syntax = ""proto2"";

// more stress testing for comments; BOOMs inspired by nerdrew :)
// BOOM
/* BOOM */

////////////////////
///////////////////

//BOOM//BOOM/\/BOOM/BOOM/*BOOM//BOOM*/

/*//BOOM*/
///
//!
//!!//!/!!
/**
* some documentation
*
*
*/

/*
///
*/

/*****************

message X {

}

******************/

/*

message Y {
    this would be a syntax error if uncommented
}

*/


/*4 5 6
7
8
9
*/


// BOOM
/* BOOM */
message A { /*BOOM
BOOM
BOOM*/
    // BOOM
    enum E1 {
        // BOOM
        // BOOM
        V1 = 1;
        // BOOM
        v2 = 2;
    }
    // BOOM
    enum E2 {
        // BOOM
    }
    enum E3 { /* BOOM */ }
    // BOOM
    message B {
        // BOOM
        // BOOM
        optional string b = 1;
    }
    message C {
        // BOOM
    }
    message D { /* BOOM */ }
    required string a = 1;

    oneof Thing {
        int32 a = 1;
        // empty oneofs not allowed currently
        //
        //
    }
}

// no newline at end of file".
(** v2/test_default_values_dont_use_cow_pb.proto *)
Definition test_12 : text := "syntax = ""proto2"";

package test_default_values_dont_use_cow;

message TestDefaultValuesDontUseCowOptional {
    optional string string_field = 14            [default = ""abc\n22""];
    optional bytes bytes_field = 15              [default = ""cde\n33""];
}

message TestDefaultValuesDontUseCowRequired {
    required string string_field = 14            [default = ""abc\n22""];
    required bytes bytes_field = 15              [default = ""cde\n33""];
}
".
(** v2/test_default_values_pb.proto *)
Definition test_13 : text := "syntax = ""proto2"";

package test_default_values;

enum EnumForDefaultValue {
    ONE = 1;
    TWO = 2;
    THREE = 3;
}

message TestDefaultValuesOptional {
    optional double double_field = 1             [default =  1];
    optional float float_field = 2               [default =  2];

    optional int32 int32_field = 3               [default =  3];
    optional int64 int64_field = 4               [default =  4];
    optional uint32 uint32_field = 5             [default =  5];
    optional uint64 uint64_field = 6             [default =  6];
    optional sint32 sint32_field = 7             [default =  7];
    optional sint64 sint64_field = 8             [default =  8];
    optional fixed32 fixed32_field = 9           [default =  9];
    optional fixed64 fixed64_field = 10          [default = 10];
    optional sfixed32 sfixed32_field = 11        [default = 11];
    optional sfixed64 sfixed64_field = 12        [default = 12];
    optional bool bool_field = 13                [default = true];
    optional string string_field = 14            [default = ""abc\n22""];
    optional bytes bytes_field = 15              [default = ""cde\n33""];
    optional EnumForDefaultValue enum_field = 16 [default = TWO];
    optional EnumForDefaultValue enum_field_without_default = 17;
}

message TestDefaultValuesRequired {
    required double double_field = 1             [default =  1];
    required float float_field = 2               [default =  2];

    required int32 int32_field = 3               [default =  3];
    required int64 int64_field = 4               [default =  4];
    required uint32 uint32_field = 5             [default =  5];
    required uint64 uint64_field = 6             [default =  6];
    required sint32 sint32_field = 7             [default =  7];
    required sint64 sint64_field = 8             [default =  8];
    required fixed32 fixed32_field = 9           [default =  9];
    required fixed64 fixed64_field = 10          [default = 10];
    required sfixed32 sfixed32_field = 11        [default = 11];
    required sfixed64 sfixed64_field = 12        [default = 12];
    required bool bool_field = 13                [default = true];
    required string string_field = 14            [default = ""abc\n22""];
    required bytes bytes_field = 15              [default = ""cde\n33""];
    required EnumForDefaultValue enum_field = 16 [default = TWO];
    required EnumForDefaultValue enum_field_without_default = 17;
}

message TestExtremeDefaultValues {
    // Text for nonfinite floating-point values.
    optional double inf_double = 14 [default = inf];
    optional double neg_inf_double = 15 [default = -inf];
    optional double nan_double = 16 [default = nan];
    optional float inf_float = 17 [default = inf];
    optional float neg_inf_float = 18 [default = -inf];
    optional float nan_float = 19 [default = nan];
}
".
(** v2/test_deprecated_lifetime_can_compile.proto *)
Definition test_14 : text := "syntax = ""proto2"";

message HasLifetimeParameterIfAddDeprecatedFields {
    optional string dep = 1 [deprecated=true];
}

message SameHere {
    oneof ContainsDeprecated {
        string dep = 1 [deprecated=true];
    }
}

message AndThisToo {
    optional MessageWithLifetime dep = 1 [deprecated=true];
}

message MessageWithLifetime {
    optional string s = 1;
}".
(** v2/test_deprecated_lifetime_pb.proto *)
Definition test_15 : text := "syntax = ""proto2"";

message ThisShouldNotHaveALifetimeParameter {
    optional string dep = 1 [deprecated=true];
}

message ThisShouldntEither {
    oneof ContainsDeprecated {
        string dep = 1 [deprecated=true];
    }
}

message NorShouldThis {
    optional MessageWithLifetime dep = 1 [deprecated=true];
}

message MessageWithLifetime {
    optional string s = 1;
}".
(** v2/test_enum_alias_pb.proto *)
Definition test_16 : text := "
// Enum aliases are parsed but not compiled.
// Currently not tested.

syntax = ""proto2"";

package test_enum_alias;

enum EnumWithAlias {
    option allow_alias = true;
    UNKNOWN = 0;
    A = 10;
    B = 20;
    A_AGAIN = 10;
}

message TestEnumWithAlias {
    optional EnumWithAlias en = 1;
}
".
(** v2/test_enum_invalid_default.proto *)
Definition test_17 : text := "syntax = ""proto2"";

enum Enum1 {
  a = 0;
  b = 1;
  c = 2;
}

message Msg1 {
  optional Enum1 x = 9 [default = a]; // a field exists
  optional Enum1 y = 9 [default = does_not_exist]; // a field doesn't exist
}
".
(** v2/test_enum_values_pb.proto *)
Definition test_18 : text := "syntax = ""proto2"";

enum TestEnumValuesEnum {
    WINTER = 11;
    SPRING = 22;
    SUMMER = 33;
    AUTUMN = 44;
}
".
(** v2/test_expose_oneof_pb.proto *)
Definition test_19 : text := "import ""rustproto.proto"";


option (rustproto.expose_oneof) = false;

message TestExposeOneof {
    oneof foobar {
        string s = 1;
        int32 i = 2;
    }
}
".
(** v2/test_group_pb.proto *)
Definition test_20 : text := "syntax = ""proto2"";

message MessageWithGroup {
    optional string aaa = 1;

    repeated group Identifier = 18 {
        optional int32 iii = 19;
        optional string sss = 20;
    }
}
".
(** v2/test_ident_pb.proto *)
Definition test_21 : text := "syntax = ""proto2"";

message Vec { }

message String { }

message Option { }
message None { }
message Some { }

message Message { }

message TestType {
    oneof type {
        string s = 1;
    }
    repeated string struct = 2;
    repeated uint32 ref = 3;
}
".
(** v2/test_import_nested_imported_pb.proto *)
Definition test_22 : text := "syntax = ""proto2"";

message ContainerForNested {
    message NestedMessage {
    }

    enum NestedEnum {
        RED = 1;
    }
}
".
(** v2/test_import_nested_pb.proto *)
Definition test_23 : text := "syntax = ""proto2"";

import ""test_import_nested_imported_pb.proto"";

message ContainsImportedNested {
    optional ContainerForNested.NestedMessage m = 1;
    optional ContainerForNested.NestedEnum e = 2;
}
".
(** v2/test_import_nonunique_1_pb.proto *)
Definition test_24 : text := "syntax = ""proto2"";

package nonunique_1;

message Nonunique {}
".
(** v2/test_import_nonunique_2_pb.proto *)
Definition test_25 : text := "syntax = ""proto2"";

package nonunique_2;

message Nonunique {}
".
(** v2/test_import_nonunique_pb.proto *)
Definition test_26 : text := "syntax = ""proto2"";

import ""test_import_nonunique_1_pb.proto"";
import ""test_import_nonunique_2_pb.proto"";

message TestImportNonunque {
    optional nonunique_1.Nonunique n1 = 1;
    optional nonunique_2.Nonunique n2 = 2;
}
".
(** v2/test_import_pkg_nested_imported_pb.proto *)
Definition test_27 : text := "syntax = ""proto2"";

package foo.baz;

message ContainerForNested {
    message NestedMessage {
    }

    enum NestedEnum {
        RED = 1;
    }
}
".
(** v2/test_import_pkg_nested_pb.proto *)
Definition test_28 : text := "syntax = ""proto2"";

import ""test_import_pkg_nested_imported_pb.proto"";

package foo.bar;

message ContainsImportedNested {
    optional foo.baz.ContainerForNested.NestedMessage m = 1;
    optional foo.baz.ContainerForNested.NestedEnum e = 2;
}
".
(** v2/test_import_root_imported_pb.proto *)
Definition test_29 : text := "syntax = ""proto2"";

message ImportedMessage {
}

enum ImportedEnum {
    SOMETHING = 1;
}
".
(** v2/test_import_root_pb.proto *)
Definition test_30 : text := "syntax = ""proto2"";

import ""test_import_root_imported_pb.proto"";

message ContainsImported {
    optional ImportedMessage imported_message = 1;
    optional ImportedEnum imported_enum = 2;
}
".
(** v2/test_lite_runtime_pb.proto *)
Definition test_31 : text := "syntax = ""proto2"";

package test_lite_runtime;

option optimize_for = LITE_RUNTIME;

enum EnumTestLiteRuntime {
    ONE = 1;
    TWO = 2;
}

message TestLiteRuntime {
    optional int32 v = 1;
}
".
(** v2/test_name_resolution_p0.proto *)
Definition test_32 : text := "syntax = ""proto2"";

package shared0.shared1.shared2.first0.first1.first2;

import ""test_name_resolution_p1.proto"";

message TestPackagePrefixedFieldNames {
    optional second0.second1.second2.B b = 1;
}

message TestNonUniquePackagePrefixedFieldNames {
    optional shared2.second0.second1.second2.B b = 1;
}

message TestAbsoluteFieldNames {
    optional .shared0.shared1.shared2.second0.second1.second2.B b = 1;
}

message ShouldUseInternalB {
    optional B b = 1;

    message B {}
}

message ShouldUseSamePackageB {
    optional B b = 1;
}

message B {}
".
(** v2/test_name_resolution_p1.proto *)
Definition test_33 : text := "syntax = ""proto2"";

package shared0.shared1.shared2.second0.second1.second2;

message B {}
".
(** v2/test_name_resolution_p2.proto *)
Definition test_34 : text := "syntax = ""proto2"";

message ShouldUseInternalB {
    optional B b = 1;

    message B {}
}

message ShouldUseSamePackageB {
    optional B b = 1;
}

message B {}
".
(** v2/test_name_resolution_p3.proto *)
Definition test_35 : text := "syntax = ""proto2"";

import ""test_name_resolution_p2.proto"";

message ShouldUseInternalB {
    optional B b = 1;

    message B {}
}

message ShouldUseDifferentPackageB {
    optional B b = 1;
}
".
(** v2/test_name_resolution_p4.proto *)
Definition test_36 : text := "syntax = ""proto2"";

import ""test_name_resolution_p2.proto"";

message ShouldUseSamePackageBDespiteImport {
    optional B b = 1;
}

message B {}
".
(** v2/test_nested_basic_case_p0.proto *)
Definition test_37 : text := "syntax = ""proto2"";

package test_nested_package_dir.basic.case.nested;

enum Enum {
  Variant_1  = 0;
}

message Outer {
  message Inner {
    optional Enum enum_1  = 0;
  }
}".
(** v2/test_nested_basic_case_p1.proto *)
Definition test_38 : text := "syntax = ""proto2"";

package test_nested_package_dir.basic.case.remote;

import ""test_nested_basic_case_p0.proto"";".
(** v2/test_nested_p0.proto *)
Definition test_39 : text := "syntax = ""proto2"";

package test_nested_package_dir.this.is.a.nested.package;


message Level1 {
    message Level2 {
        message Level3 {
            message Level4 {
                message Level5 {

                    optional int32 level5 = 1;

                    enum Level5NativeEnum {
                        LEVEL5 = 0;
                    }
                }

                optional int32 level4 = 1;

                enum Level4NativeEnum {
                    LEVEL4 = 0;
                }
            }

            optional int32 level3 = 1;

            enum Level3NativeEnum {
                LEVEL3 = 0;
            }
        }

        optional int32 level2 = 1;
        optional OutermostEnum OM = 2;
        optional Level1NativeEnum L1 = 3;
        optional Level2NativeEnum L2 = 4;
        optional Level3.Level3NativeEnum L3 = 5;
        optional Level3.Level4.Level4NativeEnum L4 = 6;
        optional Level3.Level4.Level5.Level5NativeEnum L5 = 7;


        enum Level2NativeEnum {
            LEVEL2 = 0;
        }
    }

    optional int32 level1 = 1;

    enum Level1NativeEnum {
        LEVEL1 = 0;
    }
}

enum OutermostEnum {
    OUTERMOST = 0;
}
".
(** v2/test_nested_p1.proto *)
Definition test_40 : text := "syntax = ""proto2"";

package test_nested_package_dir_alt.different.package.level.same.names;

import ""test_nested_p0.proto"";

message Level1 {
    message Level2 {
        message Level3 {
            message Level4 {
                message Level5 {

                    optional int32 level5 = 1;

                    enum Level5NativeEnum {
                        LEVEL5 = 0;
                    }
                }

                optional int32 level4 = 1;

                enum Level4NativeEnum {
                    LEVEL4 = 0;
                }
            }

            optional int32 level3 = 1;

            enum Level3NativeEnum {
                LEVEL3 = 0;
            }
        }

        optional int32 level2 = 1;
        optional OutermostEnum OM = 2;
        optional Level1NativeEnum L1 = 3;
        optional test_nested_package_dir.this.is.a.nested.package.Level1.Level2.Level2NativeEnum L2 = 4;
        optional Level3.Level3NativeEnum L3 = 5;
        optional Level3.Level4.Level4NativeEnum L4 = 6;
        optional Level3.Level4.Level5.Level5NativeEnum L5 = 7;


        enum Level2NativeEnum {
            LEVEL2 = 0;
        }
    }

    optional int32 level1 = 1;

    enum Level1NativeEnum {
        LEVEL1 = 0;
    }
}

enum OutermostEnum {
    P1_OUTERMOST = 0;
}
".
(** v2/test_nested_p2.proto *)
Definition test_41 : text := "syntax = ""proto2"";

package test_nested_package_dir_alt.different.package.level.with.some.different.names;

import ""test_nested_p1.proto"";

message unique_p2_Level1 {
    message Level2 {
        message Level3 {
            message Level4 {
                message unique_p2_Level5 {

                    optional int32 P2_level5 = 1;

                    enum Level5NativeEnum {
                        P2_LEVEL5 = 0;
                    }
                }

                optional int32 P2_level4 = 1;

                enum Level4NativeEnum {
                    P2_LEVEL4 = 0;
                }
            }

            optional int32 P2_level3 = 1;

            enum Level3NativeEnum {
                P2_LEVEL3 = 0;
            }
        }

        optional int32 P2_level2 = 1;

        optional test_nested_package_dir_alt.different.package.level.same.names.OutermostEnum OM = 2;
        optional Level1NativeEnum L1 = 3;
        optional Level2NativeEnum L2 = 4;
        optional test_nested_package_dir_alt.different.package.level.same.names.Level1.Level2.Level3.Level3NativeEnum L3 = 5;
        optional Level3.Level4.Level4NativeEnum L4 = 6;
        optional test_nested_package_dir.this.is.a.nested.package.Level1.Level2.Level3.Level4.Level5.Level5NativeEnum L5 = 7;


        enum Level2NativeEnum {
            P2_LEVEL2 = 0;
        }
    }

    optional int32 P2_level1 = 1;

    enum Level1NativeEnum {
        P2_LEVEL1 = 0;
    }
}

enum unique_p2_OutermostEnum {
    P2_OUTERMOST = 0;
}
".
(** v2/test_nested_p3.proto *)
Definition test_42 : text := "syntax = ""proto2"";

package test_nested_package_dir.empty.package;

import ""test_nested_p2.proto"";
".
(** v2/test_nonunique_enum_pb.proto *)
Definition test_43 : text := "syntax = ""proto2"";

message MessageA {
    enum EnumA { FOO = 0; }
}
message MessageB {
    enum EnumB { FOO = 0; }
}
".
(** v2/test_oneof_pb.proto *)
Definition test_44 : text := "syntax = ""proto2"";

enum EnumForOneof {
    A = 10;
}

message MessageForOneof {
    optional int32 f = 1;
}

message TestOneof {
    optional string s = 29;
    oneof one {
        double double_field = 1;
        float float_field = 2;
        int32 int32_field = 3;
        int64 int64_field = 4;
        uint32 uint32_field = 5;
        uint64 uint64_field = 6;
        sint32 sint32_field = 7;
        sint64 sint64_field = 8;
        fixed32 fixed32_field = 9;
        fixed64 fixed64_field = 10;
        sfixed32 sfixed32_field = 11;
        sfixed64 sfixed64_field = 12;
        bool bool_field = 13;
        string string_field = 14;
        bytes bytes_field = 15;
        EnumForOneof enum_field = 16;
        MessageForOneof message_field = 17;
    }
}
".
(** v2/test_owned_pb.proto *)
Definition test_45 : text := "message Foo {
    optional string s = 1;
}
".
(** v2/test_required_pb.proto *)
Definition test_46 : text := "syntax = ""proto2"";

package test_required;

message TestRequired {
    required bool b = 5;
}
".
(** v2/test_root_pb.proto *)
Definition test_47 : text := "syntax = ""proto2"";

// no namespace declaration

message Root {
    message Nested {
    }

    // accessing nested message in root namespace
    repeated .Root.Nested nested = 1;
}
".
(** v2/test_special~characters file{name}_pb.proto *)
Definition test_48 : text := "syntax = ""proto2"";

// More test that filenames are sanitized, even imports.

package special;

message Outer {
}
".
(** v2/test_text_format_pb.proto *)
Definition test_49 : text := "syntax = ""proto2"";

enum TestEnum {
    DARK = 1;
    LIGHT = 2;
}

message TestMessage {
    optional int32 value = 10;
}

message TestTypes {
    optional double double_singular = 1;
    optional float float_singular = 2;
    optional int32 int32_singular = 3;
    optional int64 int64_singular = 4;
    optional uint32 uint32_singular = 5;
    optional uint64 uint64_singular = 6;
    optional sint32 sint32_singular = 7;
    optional sint64 sint64_singular = 8;
    optional fixed32 fixed32_singular = 9;
    optional fixed64 fixed64_singular = 10;
    optional sfixed32 sfixed32_singular = 11;
    optional sfixed64 sfixed64_singular = 12;
    optional bool bool_singular = 13;
    optional string string_singular = 14;
    optional bytes bytes_singular = 15;
    optional TestEnum test_enum_singular = 16;
    optional TestMessage test_message_singular = 17;

    repeated double double_repeated = 31;
    repeated float float_repeated = 32;
    repeated int32 int32_repeated = 33;
    repeated int64 int64_repeated = 34;
    repeated uint32 uint32_repeated = 35;
    repeated uint64 uint64_repeated = 36;
    repeated sint32 sint32_repeated = 37;
    repeated sint64 sint64_repeated = 38;
    repeated fixed32 fixed32_repeated = 39;
    repeated fixed64 fixed64_repeated = 40;
    repeated sfixed32 sfixed32_repeated = 41;
    repeated sfixed64 sfixed64_repeated = 42;
    repeated bool bool_repeated = 43;
    repeated string string_repeated = 44;
    repeated bytes bytes_repeated = 45;
    repeated TestEnum test_enum_repeated = 46;
    repeated TestMessage test_message_repeated = 47;
}

message TestTextFormatRustIdentifier {
    optional bool const = 1;
}
".
(** v2/vector_tile.proto *)
Definition test_50 : text := "package vector_tile;

option optimize_for = LITE_RUNTIME;

message Tile {

        // GeomType is described in section 4.3.4 of the specification
        enum GeomType {
             UNKNOWN = 0;
             POINT = 1;
             LINESTRING = 2;
             POLYGON = 3;
        }

        // Variant type encoding
        // The use of values is described in section 4.1 of the specification
        message Value {
                // Exactly one of these values must be present in a valid message
                optional string string_value = 1;
                optional float float_value = 2;
                optional double double_value = 3;
                optional int64 int_value = 4;
                optional uint64 uint_value = 5;
                optional sint64 sint_value = 6;
                optional bool bool_value = 7;

                extensions 8 to max;
        }

        // Features are described in section 4.2 of the specification
        message Feature {
                optional uint64 id = 1 [ default = 0 ];

                // Tags of this feature are encoded as repeated pairs of
                // integers.
                // A detailed description of tags is located in sections
                // 4.2 and 4.4 of the specification
                repeated uint32 tags = 2 [ packed = true ];

                // The type of geometry stored in this feature.
                optional GeomType type = 3 [ default = UNKNOWN ];

                // Contains a stream of commands and parameters (vertices).
                // A detailed description on geometry encoding is located in 
                // section 4.3 of the specification.
                repeated uint32 geometry = 4 [ packed = true ];
        }

        // Layers are described in section 4.1 of the specification
        message Layer {
                // Any compliant implementation must first read the version
                // number encoded in this message and choose the correct
                // implementation for this version number before proceeding to
                // decode other parts of this message.
                required uint32 version = 15 [ default = 1 ];

                required string name = 1;

                // The actual features in this tile.
                repeated Feature features = 2;

                // Dictionary encoding for keys
                repeated string keys = 3;

                // Dictionary encoding for values
                repeated Value values = 4;

                // Although this is an ""optional"" field it is required by the specification.
                // See https://github.com/mapbox/vector-tile-spec/issues/47
                optional uint32 extent = 5 [ default = 4096 ];

                extensions 16 to max;
        }

        repeated Layer layers = 3;

        extensions 16 to 8191;
}
".
(** v3/test_basic_pb.proto *)
Definition test_51 : text := "syntax = ""proto3"";

package basic;

message Test1 {
    int32 a = 1;
}

message Test2 {
    string b = 2;
}

message Test3 {
    Test1 c = 3;
}

message Test4 {
    repeated int32 d = 4 [packed=true];
}


message TestPackedUnpacked {
    repeated int32 unpacked = 4 [packed=false];
    repeated int32 packed = 5;
}

message TestEmpty {
    int32 foo = 10;
}

message Test{
    bool b = 5;
}

message TestUnknownFields {
    int32 a = 1;
}

// just check it compiles
message TestSelfReference {
    TestSelfReference r1 = 1;
    TestSelfReference r2 = 2;
}

message TestDefaultInstanceField {
    string s = 1;
}

message TestDefaultInstance {
    TestDefaultInstanceField field = 1;
}

message TestDescriptor {
    int32 stuff = 10;
}

enum TestEnumDescriptor {
    UNKNOWN = 0;
    RED = 1;
    BLUE = 2;
    GREEN = 3;
}

message TestTypesSingular {
    double double_field = 1;
    float float_field = 2;
    int32 int32_field = 3;
    int64 int64_field = 4;
    uint32 uint32_field = 5;
    uint64 uint64_field = 6;
    sint32 sint32_field = 7;
    sint64 sint64_field = 8;
    fixed32 fixed32_field = 9;
    fixed64 fixed64_field = 10;
    sfixed32 sfixed32_field = 11;
    sfixed64 sfixed64_field = 12;
    bool bool_field = 13;
    string string_field = 14;
    bytes bytes_field = 15;
    TestEnumDescriptor enum_field = 16;
}

message TestTypesSingularOptional {
    optional double double_field = 1;
    optional float float_field = 2;
    optional int32 int32_field = 3;
    optional int64 int64_field = 4;
    optional uint32 uint32_field = 5;
    optional uint64 uint64_field = 6;
    optional sint32 sint32_field = 7;
    optional sint64 sint64_field = 8;
    optional fixed32 fixed32_field = 9;
    optional fixed64 fixed64_field = 10;
    optional sfixed32 sfixed32_field = 11;
    optional sfixed64 sfixed64_field = 12;
    optional bool bool_field = 13;
    optional string string_field = 14;
    optional bytes bytes_field = 15;
    optional TestEnumDescriptor enum_field = 16;
}

message TestTypesRepeated {
    repeated double double_field = 1 [packed=false];
    repeated float float_field = 2 [packed=false];
    repeated int32 int32_field = 3 [packed=false];
    repeated int64 int64_field = 4 [packed=false];
    repeated uint32 uint32_field = 5 [packed=false];
    repeated uint64 uint64_field = 6 [packed=false];
    repeated sint32 sint32_field = 7 [packed=false];
    repeated sint64 sint64_field = 8 [packed=false];
    repeated fixed32 fixed32_field = 9 [packed=false];
    repeated fixed64 fixed64_field = 10 [packed=false];
    repeated sfixed32 sfixed32_field = 11 [packed=false];
    repeated sfixed64 sfixed64_field = 12 [packed=false];
    repeated bool bool_field = 13 [packed=false];
    repeated string string_field = 14;
    repeated bytes bytes_field = 15;
    repeated TestEnumDescriptor enum_field = 16 [packed=false];
}

message TestTypesRepeatedPacked {
    repeated double double_field = 1 [packed=true];
    repeated float float_field = 2 [packed=true];
    repeated int32 int32_field = 3 [packed=true];
    repeated int64 int64_field = 4 [packed=true];
    repeated uint32 uint32_field = 5 [packed=true];
    repeated uint64 uint64_field = 6 [packed=true];
    repeated sint32 sint32_field = 7 [packed=true];
    repeated sint64 sint64_field = 8 [packed=true];
    repeated fixed32 fixed32_field = 9 [packed=true];
    repeated fixed64 fixed64_field = 10 [packed=true];
    repeated sfixed32 sfixed32_field = 11 [packed=true];
    repeated sfixed64 sfixed64_field = 12 [packed=true];
    repeated bool bool_field = 13 [packed=true];
    repeated string string_field = 14;
    repeated bytes bytes_field = 15;
    repeated TestEnumDescriptor enum_field = 16 [packed=true];
}

message TestInvalidTag {
}

message TestTruncated {
    repeated fixed32 ints = 2 [packed=true];
}

message TestBugSint {
    sint32 s32 = 1;
    sint64 s64 = 2;
}
".
(** v3/test_comments.proto *)
Definition test_52 : text := "syntax = ""proto3"";

// more stress testing for comments; BOOMs inspired by nerdrew :)
// BOOM
/* BOOM */

////////////////////
///////////////////

//BOOM//BOOM/\/BOOM/BOOM/*BOOM//BOOM*/

/*//BOOM*/
///
//!
//!!//!/!!
/**
* some documentation
*
*
*/

/*
///
*/

/*****************

message X {

}

******************/

/*

message Y {
    this would be a syntax error if uncommented
}

*/


/*4 5 6
7
8
9
*/


// BOOM
/* BOOM */
message A { /*BOOM
BOOM
BOOM*/
    // BOOM
    enum E1 {
        // BOOM
        // BOOM
        V1 = 1;
        // BOOM
        v2 = 2;
    }
    // BOOM
    enum E2 {
        // BOOM
    }
    enum E3 { /* BOOM */ }
    // BOOM
    message B {
        // BOOM
        // BOOM
        optional string b = 1;
    }
    message C {
        // BOOM
    }
    message D { /* BOOM */ }
    required string a = 1;
    
    oneof Thing {
        int32 a = 1;
        // empty oneofs not allowed currently
        //
        //
    }
}

// no newline at end of file".
(** v3/test_deprecated_lifetime_can_compile.proto *)
Definition test_53 : text := "syntax = ""proto3"";

message HasLifetimeParameterIfAddDeprecatedFields {
    optional string dep = 1 [deprecated=true];
}

message SameHere {
    oneof ContainsDeprecated {
        string dep = 1 [deprecated=true];
    }
}

message AndThisToo {
    optional MessageWithLifetime dep = 1 [deprecated=true];
}

message MessageWithLifetime {
    optional string s = 1;
}".
(** v3/test_deprecated_lifetime_pb.proto *)
Definition test_54 : text := "syntax = ""proto3"";

message ThisShouldNotHaveALifetimeParameter {
    optional string dep = 1 [deprecated=true];
}

message ThisShouldntEither {
    oneof ContainsDeprecated {
        string dep = 1 [deprecated=true];
    }
}

message NorShouldThis {
    optional MessageWithLifetime dep = 1 [deprecated=true];
}

message MessageWithLifetime {
    optional string s = 1;
}".
(** v3/test_enum_alias_pb.proto *)
Definition test_55 : text := "
// Enum aliases are parsed but not compiled.
// Currently not tested.

syntax = ""proto3"";

package test_enum_alias;

enum EnumWithAlias {
    option allow_alias = true;
    UNKNOWN = 0;
    A = 10;
    B = 20;
    A_AGAIN = 10;
}

message TestEnumWithAlias {
    EnumWithAlias en = 1;
}
".
(** v3/test_enum_invalid_default.proto *)
Definition test_56 : text := "syntax = ""proto2"";

enum Enum1 {
  a = 0;
  b = 1;
  c = 2;
}

message Msg1 {
  optional Enum1 x = 9 [default = a]; // a field exists
  optional Enum1 y = 9 [default = does_not_exist]; // a field doesn't exist
}
".
(** v3/test_ident_pb.proto *)
Definition test_57 : text := "syntax = ""proto3"";

message Vec { }

message String { }

message Option { }
message None { }
message Some { }

message Message { }

message TestType {
    oneof type {
        string s = 1;
    }
    repeated string struct = 2;
    repeated uint32 ref = 3;
}
".
(** v3/test_map_pb.proto *)
Definition test_58 : text := "syntax = ""proto3"";

message TestMap {
    map<string, uint32> m = 1;
    map<string, TestMapEntry> mm = 2;
}

message TestMapEntry {
  int64 v = 1;
}
".
(** v3/test_oneof_pb.proto *)
Definition test_59 : text := "syntax = ""proto3"";

enum EnumForOneof {
    Z = 0;
    A = 10;
}

message MessageForOneof {
    int32 f = 1;
}

message TestOneof {
    string s = 29;
    oneof one {
        double double_field = 1;
        float float_field = 2;
        int32 int32_field = 3;
        int64 int64_field = 4;
        uint32 uint32_field = 5;
        uint64 uint64_field = 6;
        sint32 sint32_field = 7;
        sint64 sint64_field = 8;
        fixed32 fixed32_field = 9;
        fixed64 fixed64_field = 10;
        sfixed32 sfixed32_field = 11;
        sfixed64 sfixed64_field = 12;
        bool bool_field = 13;
        string string_field = 14;
        bytes bytes_field = 15;
        EnumForOneof enum_field = 16;
        MessageForOneof message_field = 17;
    }
}
".
(** v3/test_owned_pb.proto *)
Definition test_60 : text := "message Foo {
    optional string s = 1;
}
".
Definition test_files : list (text * text) := [
  ("v2/issue118-2.proto", test_0);
  ("v2/issue118.proto", test_1);
  ("v2/issue_170_a.proto", test_2);
  ("v2/issue_170_b.proto", test_3);
  ("v2/issue_170_c.proto", test_4);
  ("v2/issue_170_common.proto", test_5);
  ("v2/issue_170_d.proto", test_6);
  ("v2/issue_170_e.proto", test_7);
  ("v2/struct.proto", test_8);
  ("v2/test-sanitize-file-name_pb.proto", test_9);
  ("v2/test_basic_pb.proto", test_10);
  ("v2/test_comments.proto", test_11);
  ("v2/test_default_values_dont_use_cow_pb.proto", test_12);
  ("v2/test_default_values_pb.proto", test_13);
  ("v2/test_deprecated_lifetime_can_compile.proto", test_14);
  ("v2/test_deprecated_lifetime_pb.proto", test_15);
  ("v2/test_enum_alias_pb.proto", test_16);
  ("v2/test_enum_invalid_default.proto", test_17);
  ("v2/test_enum_values_pb.proto", test_18);
  ("v2/test_expose_oneof_pb.proto", test_19);
  ("v2/test_group_pb.proto", test_20);
  ("v2/test_ident_pb.proto", test_21);
  ("v2/test_import_nested_imported_pb.proto", test_22);
  ("v2/test_import_nested_pb.proto", test_23);
  ("v2/test_import_nonunique_1_pb.proto", test_24);
  ("v2/test_import_nonunique_2_pb.proto", test_25);
  ("v2/test_import_nonunique_pb.proto", test_26);
  ("v2/test_import_pkg_nested_imported_pb.proto", test_27);
  ("v2/test_import_pkg_nested_pb.proto", test_28);
  ("v2/test_import_root_imported_pb.proto", test_29);
  ("v2/test_import_root_pb.proto", test_30);
  ("v2/test_lite_runtime_pb.proto", test_31);
  ("v2/test_name_resolution_p0.proto", test_32);
  ("v2/test_name_resolution_p1.proto", test_33);
  ("v2/test_name_resolution_p2.proto", test_34);
  ("v2/test_name_resolution_p3.proto", test_35);
  ("v2/test_name_resolution_p4.proto", test_36);
  ("v2/test_nested_basic_case_p0.proto", test_37);
  ("v2/test_nested_basic_case_p1.proto", test_38);
  ("v2/test_nested_p0.proto", test_39);
  ("v2/test_nested_p1.proto", test_40);
  ("v2/test_nested_p2.proto", test_41);
  ("v2/test_nested_p3.proto", test_42);
  ("v2/test_nonunique_enum_pb.proto", test_43);
  ("v2/test_oneof_pb.proto", test_44);
  ("v2/test_owned_pb.proto", test_45);
  ("v2/test_required_pb.proto", test_46);
  ("v2/test_root_pb.proto", test_47);
  ("v2/test_special~characters file{name}_pb.proto", test_48);
  ("v2/test_text_format_pb.proto", test_49);
  ("v2/vector_tile.proto", test_50);
  ("v3/test_basic_pb.proto", test_51);
  ("v3/test_comments.proto", test_52);
  ("v3/test_deprecated_lifetime_can_compile.proto", test_53);
  ("v3/test_deprecated_lifetime_pb.proto", test_54);
  ("v3/test_enum_alias_pb.proto", test_55);
  ("v3/test_enum_invalid_default.proto", test_56);
  ("v3/test_ident_pb.proto", test_57);
  ("v3/test_map_pb.proto", test_58);
  ("v3/test_oneof_pb.proto", test_59);
  ("v3/test_owned_pb.proto", test_60)].
Definition test_disk : disk := small_disk ["v2"; "v3"] test_files.
(** generate.sh:23-28: the options of some files *)
Definition test_options (f : text) : options :=
  let is (l : list text) := existsb (String.eqb f) l in
  mkOptions [f] None None [] false false false false None None
    (is ["v2/test_default_values_dont_use_cow_pb.proto"])
    (is ["v2/test_owned_pb.proto"; "v3/test_owned_pb.proto"]) false false false
    (is ["v2/test_deprecated_lifetime_can_compile.proto"; "v3/test_deprecated_lifetime_can_compile.proto"])
    (is ["v2/test_default_values_dont_use_cow_pb.proto"; "v2/test_default_values_pb.proto"]).
(** generate.sh:15-18 *)
Definition must_fail : list text := ["v2/test_enum_invalid_default.proto"; "v2/test_expose_oneof_pb.proto"; "v2/test_group_pb.proto"; "v3/test_enum_invalid_default.proto"].
Definition ends_well (f : text) : bool :=
  match cli text_of true 8 (test_options f) test_disk with (inl WOk, _) => true | _ => false end.
Definition conform_generate : bool := Eval vm_compute in
  forallb (fun '(f, _) => Bool.eqb (ends_well f) (negb (existsb (String.eqb f) must_fail))) test_files.
Check eq_refl : conform_generate = true.

Definition text_read (f : text) : bool :=
  match configure test_disk (test_options f) with
  | inl [c] =>
    match read_proto true (dk_file test_disk) (g_search c) 8 (g_in c) with
    | ROk d => schema_ok d && config_ok c && match parse_rust (fst (GenGood.generated c d f 0)) with Some _ => true | None => false end
    | _ => false
    end
  | _ => false
  end.
Definition conform_parse : bool := Eval vm_compute in
  forallb (fun '(f, _) => text_read f || existsb (String.eqb f) must_fail) test_files.
Check eq_refl : conform_parse = true.
Local Open Scope Z_scope.

(** ** quick-protobuf/tests/rust_protobuf/v2/test_basic.rs, v3/test_basic.rs, v3/test_map.rs

    The tests with bytes in them, on the generated text: it is read by the parser
    of Rust and run by [RustSem.v]. *)
Definition hex_digit (a : ascii) : Z :=
  let z := Z.of_nat (nat_of_ascii a) in if z <? 58 then z - 48 else if z <? 71 then z - 55 else z - 87.
Fixpoint hex (s : text) : bytes :=
  match s with
  | String " " s' => hex s'
  | String a (String b s') => zb (16 * hex_digit a + hex_digit b) :: hex s'
  | _ => []
  end.
Definition test_target : target := {| usize_width := W64; overflow_checks := true |}.
Inductive outcome := Reads (v : rv) (rewritten : option bytes) | Fails | Other.
(** [deserialize] and then [serialize], with the functions of the message called
    [name] in the file [f] *)
Definition test_config (f : text) : option gen_config :=
  match configure test_disk (test_options f) with inl [c] => Some c | _ => None end.
Definition test_passes (f : text) : option file_descriptor :=
  match test_config f with
  | Some c =>
    match read_proto true (dk_file test_disk) (g_search c) 8 (g_in c) with
    | ROk d => match before_escape (g_passes c) d with GOk d4 => Some d4 | GErr _ => None end
    | _ => None
    end
  | None => None
  end.
Definition test_run (f : text) (passes : option file_descriptor) (pkg name : text) (b : bytes) : outcome :=
  match test_config f, passes with
  | Some c, Some d4 =>
    let d' := after_escape (g_passes c) d4 in
    let names := crate_names (crate_at [pkg] (emit_file d')) d' pkg in
    let prog := generated_program c d' d4 in
    match find (fun '(_, m) => String.eqb (m_name m) name) (GenCheck.all_messages d') with
    | Some (i, _) =>
      match struct_from test_target names prog (default_depth d') 60 i b (from_bytes b) with
      | (Ok v, _) =>
        Reads v match struct_size test_target names prog (default_depth d') 9 i v, struct_write test_target names prog (default_depth d') 9 i v with
                | Some size, Some write => match serialize_into_vec size write with Ok b' => Some b' | _ => None end
                | _, _ => None
                end
      | (Err _, _) => Fails
      | _ => Other
      end
    | None => Other
    end
  | _, _ => Other
  end.
Definition v2 : text := "v2/test_basic_pb.proto".
Definition v3 : text := "v3/test_basic_pb.proto".
Definition map3 : text := "v3/test_map_pb.proto".
Definition v2_passes := Eval vm_compute in test_passes v2.
Definition v3_passes := Eval vm_compute in test_passes v3.
Definition map3_passes := Eval vm_compute in test_passes map3.
Definition run2 (name b : text) : outcome := test_run v2 v2_passes "basic" name (hex b).
Definition run3 (name b : text) : outcome := test_run v3 v3_passes "basic" name (hex b).
Definition run_map (b : text) : outcome := test_run map3 map3_passes "test_map_pb" "TestMap" (hex b).
(** the macro test_serialize_deserialize, for less than 128 bytes: [serialize_into_vec]
    writes the length first *)
Definition both (b : text) (v : rv) : outcome := Reads v (Some (zb (zlen (hex b)) :: hex b)).
Definition only_read (o : outcome) : outcome := match o with Reads v _ => Reads v None | _ => o end.

(** test1, test2, test3, test4 *)
Definition run_1 : outcome := Eval vm_compute in run2 "Test1" "08 96 01".
Check eq_refl : run_1 = both "08 96 01" (XStruct [0%nat] [("a", XInt 150)]).
Definition run_2 : outcome := Eval vm_compute in run3 "Test1" "08 96 01".
Check eq_refl : run_2 = both "08 96 01" (XStruct [0%nat] [("a", XInt 150)]).
Definition run_3 : outcome := Eval vm_compute in run2 "Test2" "12 07 74 65 73 74 69 6e 67".
Check eq_refl : run_3 = both "12 07 74 65 73 74 69 6e 67" (XStruct [1%nat] [("b", XBytes (list_byte_of_string "testing"))]).
Definition run_4 : outcome := Eval vm_compute in run3 "Test2" "12 07 74 65 73 74 69 6e 67".
Check eq_refl : run_4 = both "12 07 74 65 73 74 69 6e 67" (XStruct [1%nat] [("b", XBytes (list_byte_of_string "testing"))]).
Definition run_5 : outcome := Eval vm_compute in run2 "Test3" "1a 03 08 96 01".
Check eq_refl : run_5 = both "1a 03 08 96 01" (XStruct [2%nat] [("c", XStruct [0%nat] [("a", XInt 150)])]).
Definition run_6 : outcome := Eval vm_compute in run3 "Test3" "1a 03 08 96 01".
Check eq_refl : run_6 = both "1a 03 08 96 01" (XStruct [2%nat] [("c", XStruct [0%nat] [("a", XInt 150)])]).
Definition run_7 : outcome := Eval vm_compute in run2 "Test4" "22 06 03 8E 02 9E A7 05".
Check eq_refl : run_7 = both "22 06 03 8E 02 9E A7 05" (XStruct [3%nat] [("d", XList [XInt 3; XInt 270; XInt 86942])]).
Definition run_8 : outcome := Eval vm_compute in run3 "Test4" "22 06 03 8E 02 9E A7 05".
Check eq_refl : run_8 = both "22 06 03 8E 02 9E A7 05" (XStruct [3%nat] [("d", XList [XInt 3; XInt 270; XInt 86942])]).
(** test_read_unpacked_expect_packed, test_read_packed_expect_unpacked *)
Definition run_9 : outcome := Eval vm_compute in only_read (run2 "TestPackedUnpacked" "20 11 20 e8 07").
Check eq_refl : run_9 = Reads (XStruct [4%nat] [("unpacked", XList [XInt 17; XInt 1000]); ("packed", XList [])]) None.
Definition run_10 : outcome := Eval vm_compute in only_read (run3 "TestPackedUnpacked" "20 11 20 e8 07").
Check eq_refl : run_10 = Reads (XStruct [4%nat] [("unpacked", XList [XInt 17; XInt 1000]); ("packed", XList [])]) None.
Definition run_11 : outcome := Eval vm_compute in only_read (run2 "TestPackedUnpacked" "2a 03 11 e8 07").
Check eq_refl : run_11 = Reads (XStruct [4%nat] [("unpacked", XList []); ("packed", XList [XInt 17; XInt 1000])]) None.
Definition run_12 : outcome := Eval vm_compute in only_read (run3 "TestPackedUnpacked" "2a 03 11 e8 07").
Check eq_refl : run_12 = Reads (XStruct [4%nat] [("unpacked", XList []); ("packed", XList [XInt 17; XInt 1000])]) None.
(** test_empty *)
Definition run_13 : outcome := Eval vm_compute in run2 "TestEmpty" "".
Check eq_refl : run_13 = both "" (XStruct [5%nat] [("foo", XOpt None)]).
Definition run_14 : outcome := Eval vm_compute in run3 "TestEmpty" "".
Check eq_refl : run_14 = both "" (XStruct [5%nat] [("foo", XInt 0)]).
(** test_read_junk, test_truncated_no_varint, test_truncated_middle_of_varint,
    test_truncated_middle_of_length_delimited, test_truncated_repeated_packed *)
Definition run_15 : outcome := Eval vm_compute in run2 "Test1" "00".
Check eq_refl : run_15 = Fails.
Definition run_16 : outcome := Eval vm_compute in run3 "Test1" "00".
Check eq_refl : run_16 = Fails.
Definition run_17 : outcome := Eval vm_compute in run2 "TestTruncated" "08".
Check eq_refl : run_17 = Fails.
Definition run_18 : outcome := Eval vm_compute in run3 "TestTruncated" "08".
Check eq_refl : run_18 = Fails.
Definition run_19 : outcome := Eval vm_compute in run2 "TestTruncated" "08 96".
Check eq_refl : run_19 = Fails.
Definition run_20 : outcome := Eval vm_compute in run3 "TestTruncated" "08 96".
Check eq_refl : run_20 = Fails.
Definition run_21 : outcome := Eval vm_compute in run2 "TestTruncated" "0a 03 10".
Check eq_refl : run_21 = Fails.
Definition run_22 : outcome := Eval vm_compute in run3 "TestTruncated" "0a 03 10".
Check eq_refl : run_22 = Fails.
Definition run_23 : outcome := Eval vm_compute in run2 "TestTruncated" "12 04 10 20".
Check eq_refl : run_23 = Fails.
Definition run_24 : outcome := Eval vm_compute in run3 "TestTruncated" "12 04 10 20".
Check eq_refl : run_24 = Fails.
(** test_bug_sint *)
Definition run_25 : outcome := Eval vm_compute in match run2 "TestBugSint" "08 01" with Reads (XStruct _ fs) w => Reads (XStruct [] fs) w | o => o end.
Check eq_refl : run_25 = both "08 01" (XStruct [] [("s32", XOpt (Some (XInt (-1)))); ("s64", XOpt None)]).
Definition run_26 : outcome := Eval vm_compute in match run2 "TestBugSint" "10 03" with Reads (XStruct _ fs) w => Reads (XStruct [] fs) w | o => o end.
Check eq_refl : run_26 = both "10 03" (XStruct [] [("s32", XOpt None); ("s64", XOpt (Some (XInt (-2))))]).
Definition run_27 : outcome := Eval vm_compute in match run3 "TestBugSint" "08 01" with Reads (XStruct _ fs) w => Reads (XStruct [] fs) w | o => o end.
Check eq_refl : run_27 = both "08 01" (XStruct [] [("s32", XInt (-1)); ("s64", XInt 0)]).
Definition run_28 : outcome := Eval vm_compute in match run3 "TestBugSint" "10 03" with Reads (XStruct _ fs) w => Reads (XStruct [] fs) w | o => o end.
Check eq_refl : run_28 = both "10 03" (XStruct [] [("s32", XInt 0); ("s64", XInt (-2))]).
(** test_map *)
Definition run_29 : outcome := Eval vm_compute in run_map "".
Check eq_refl : run_29 = both "" (XStruct [0%nat] [("m", XMap []); ("mm", XMap [])]).
Definition run_30 : outcome := Eval vm_compute in run_map "0a 07 0a 03 74 77 6f 10 02".
Check eq_refl : run_30 = both "0a 07 0a 03 74 77 6f 10 02" (XStruct [0%nat] [("m", XMap [(XBytes (list_byte_of_string "two"), XInt 2)]); ("mm", XMap [])]).
